(** Counting columns of log rows and headers. *)
From Coq Require Import Reals List Arith Bool String Ascii ZArith Lia.
From Verif Require Import Base.Res Base.Mat Base.Geom Base.AMap Base.RMat
  Model.TypeHelper Model.Types Model.StringHelper Model.Ekf Model.Ops Model.LogRows
  Spec.Csv Spec.Layout Spec.Contract Proofs.Strings Proofs.Wf Proofs.Invariant Proofs.Named Proofs.Sizes.
Import ListNotations.
Open Scope string_scope.
Open Scope nat_scope.

Fixpoint commas (s : string) : nat :=
  match s with EmptyString => 0 | String c t => (if Ascii.eqb c "," then 1 else 0) + commas t end.

Lemma columns_commas : forall s, List.length (columns s) = S (commas s).
Proof.
  induction s as [|c s IH]; [reflexivity|]. cbn [columns commas].
  destruct (Ascii.eqb c ","); cbn [List.length]; [now rewrite IH|].
  pose proof (columns_ne s). destruct (columns s); [contradiction|]. cbn in *. lia.
Qed.

Lemma commas_app : forall a b, commas (a ++ b)%string = commas a + commas b.
Proof. induction a as [|c a IH]; intros b; [reflexivity|]. cbn. rewrite IH. lia. Qed.

Lemma commas_plain : forall s, no_comma s -> commas s = 0.
Proof.
  induction s as [|c s IH]; [reflexivity|]. cbn. intros [H1 H2]. apply Ascii.eqb_neq in H1.
  now rewrite H1, IH.
Qed.

Lemma commas_fold : forall {A} (f : A -> string) k l s, (forall x, In x l -> commas (f x) = k) ->
  commas (fold_left (fun s x => (s ++ f x)%string) l s) = commas s + k * List.length l.
Proof.
  induction l as [|x l IH]; intros s H; cbn [fold_left List.length]; [lia|].
  rewrite IH by (intros; apply H; now right). rewrite commas_app, (H x) by now left. lia.
Qed.

Lemma commas_enum : forall name n, no_comma name -> commas (EnumerateHeader name n) = n.
Proof.
  intros name n H. unfold EnumerateHeader.
  rewrite (commas_fold (fun i => ("," ++ name ++ "_" ++ to_string i)%string) 1).
  - rewrite seq_length. cbn. lia.
  - intros i _. rewrite !commas_app, (commas_plain name H), (commas_plain _ (to_string_plain i)). reflexivity.
Qed.

Lemma commas_enum_to : forall name c n, no_comma name -> commas (EnumerateHeader (name ++ to_string c) n) = n.
Proof. intros. apply commas_enum, no_comma_app; [assumption|apply to_string_plain]. Qed.

Lemma commas_int : forall z, commas (int_string z) = 0.
Proof. intros. apply commas_plain, int_string_plain. Qed.
Lemma commas_nat : forall n, commas (to_string n) = 0.
Proof. intros. apply commas_plain, to_string_plain. Qed.

Section Shown.
Variable show show12 show3 : R -> string.
Hypothesis plain : forall x, no_comma (show x).
Hypothesis plain12 : forall x, no_comma (show12 x).
Hypothesis plain3 : forall x, no_comma (show3 x).

Lemma commas_show : forall x, commas (show x) = 0. Proof. intros. apply commas_plain, plain. Qed.
Lemma commas_show3 : forall x, commas (show3 x) = 0. Proof. intros. apply commas_plain, plain3. Qed.
Lemma commas_list : forall sh l, (forall x, no_comma (sh x)) -> commas (VectorToCommaString sh l) = List.length l.
Proof.
  intros sh l H. unfold VectorToCommaString. rewrite (commas_fold (fun x => ("," ++ sh x)%string) 1).
  - cbn. lia.
  - intros x _. rewrite commas_app, (commas_plain _ (H x)). reflexivity.
Qed.
Lemma commas_vec : forall v, commas (VectorToCommaString show (v3list v)) = 3.
Proof. intros. now rewrite commas_list. Qed.
Lemma commas_vec12 : forall v, commas (VectorToCommaString show12 (v3list v)) = 3.
Proof. intros. now rewrite commas_list. Qed.
Lemma commas_quat : forall q, commas (QuaternionToCommaString show q) = 4.
Proof. intros. unfold QuaternionToCommaString. rewrite !commas_app, !commas_show. reflexivity. Qed.

Lemma vlist_length : forall v, List.length (vlist v) = nr v.
Proof. intros. unfold vlist. now rewrite map_length, seq_length. Qed.

Lemma commas_if : forall (b : bool) s t, commas (if b then s else t) = if b then commas s else commas t.
Proof. now intros [|]. Qed.

Lemma diag_block_ok : forall m i n, i + n <= nr m -> i + n <= nc m ->
  exists d, diag_block m i n = OK d /\ List.length d = n.
Proof.
  intros m i n H1 H2. unfold diag_block, block.
  apply Nat.leb_le in H1, H2. rewrite H1, H2. cbn [andb bind].
  eexists; split; [reflexivity|]. now rewrite map_length, seq_length.
Qed.

Lemma cov_diag_ok : forall e i n, reachable e -> i + n <= e_size e ->
  exists d, cov_diag e i n = OK d /\ List.length d = n.
Proof.
  intros e i n Hr H. destruct (dims_ok e (reachable_inv e Hr)) as [H1 [H2 _]].
  destruct (diag_block_ok (e_cov e) i n) as [d [E L]]; [lia|lia|].
  unfold cov_diag. rewrite E. cbn [bind]. destruct (is_root e); eexists; split; try reflexivity; auto.
  unfold squares. now rewrite map_length.
Qed.
End Shown.

Ltac plain_name := cbn; repeat (split; [intro; discriminate|]); exact I.
Ltac rcount H := repeat (rewrite ?commas_app, ?commas_if, ?(commas_show _ H), ?(commas_vec _ H),
  ?(commas_quat _ H), ?commas_int, ?commas_nat, ?(commas_list _ _ H), ?vlist_length).
Ltac hcount := repeat (rewrite ?commas_app, ?commas_if); repeat (rewrite commas_enum by plain_name);
  repeat (rewrite commas_enum_to by plain_name); cbn [commas Ascii.eqb Bool.eqb].

(** Where a sensor's slice lies. *)
Lemma slot_bound : forall e i n f, reachable e -> 0 < n ->
  (forall k, k < n -> nth_error (layout (e_state e)) (i + k) = Some (f k)) -> i + n <= e_size e.
Proof.
  intros e i n f Hr Hn H. destruct (partition_ok e Hr) as [_ [_ L]].
  assert (i + (n - 1) < List.length (layout (e_state e))).
  { apply nth_error_Some. rewrite H by lia. discriminate. }
  lia.
Qed.

Lemma imus_at_in : forall m cur id s, imus_at m cur -> In (id, s) m -> i_ext s = true -> i_int s = true ->
  i_index_int s = i_index s + 6.
Proof.
  induction m as [|[k x] t IH]; intros cur id s H Hin He Hi; [contradiction|].
  cbn in H. destruct H as [H1 [H2 [H3 H4]]]. destruct Hin as [E|Hin]; [|eauto].
  injection E as -> ->. rewrite He, Hi in *. rewrite H2, H3 by reflexivity. lia.
Qed.

Lemma imu_bounds : forall e id s, reachable e -> mfind id (s_imu (e_state e)) = Some s ->
  i_size s = (if i_ext s then 6 else 0) + (if i_int s then 6 else 0) /\
  (i_ext s || i_int s = true -> i_index s + i_size s <= e_size e) /\
  (i_ext s = true -> i_index_ext s + 6 <= e_size e) /\ (i_int s = true -> i_index_int s + 6 <= e_size e).
Proof.
  intros e id s Hr Hf. pose proof (mfind_in _ _ _ _ Hf) as Hin.
  destruct (partition_ok e Hr) as [[_ [HI _]] _]. destruct (HI id s Hin) as [J1 [J2 [J3 J4]]]. clear HI.
  destruct (reachable_inv e Hr) as [W _].
  destruct (pre_sizes _ (wf_pre _ W)) as [HS _]. rewrite Forall_forall in HS. specialize (HS _ Hin). cbn [snd] in HS.
  destruct (wf_ix _ W) as [_ [HA _]].
  pose proof (imus_at_in _ _ _ _ HA Hin) as JJ.
  assert (B1 : i_ext s = true -> i_index_ext s + 6 <= e_size e).
  { intros E. apply (slot_bound e _ 6 (LImuExt id) Hr); [lia|]. now apply J1. }
  assert (B2 : i_int s = true -> i_index_int s + 6 <= e_size e).
  { intros E. apply (slot_bound e _ 6 (LImuInt id) Hr); [lia|]. now apply J2. }
  assert (L : i_size s = (if i_ext s then 6 else 0) + (if i_int s then 6 else 0)) by exact HS.
  split; [exact L|]. split; [|auto]. intros E. rewrite L. destruct (i_ext s), (i_int s); try discriminate E.
  - specialize (JJ eq_refl eq_refl). specialize (B2 eq_refl). lia.
  - rewrite (J3 eq_refl). specialize (B1 eq_refl). lia.
  - rewrite (J4 eq_refl eq_refl). specialize (B2 eq_refl). lia.
Qed.

Lemma gps_bounds : forall e id s, reachable e -> mfind id (s_gps (e_state e)) = Some s -> g_ext s = true ->
  g_index s + 3 <= e_size e.
Proof.
  intros e id s Hr Hf He. pose proof (mfind_in _ _ _ _ Hf) as Hin.
  destruct (partition_ok e Hr) as [[_ [_ [HI _]]] _]. apply (slot_bound e _ 3 (LGps id) Hr); [lia|]. now apply HI.
Qed.
Lemma cam_bounds : forall e id s, reachable e -> mfind id (s_cam (e_state e)) = Some s -> c_ext s = true ->
  c_index s + 6 <= e_size e.
Proof.
  intros e id s Hr Hf He. pose proof (mfind_in _ _ _ _ Hf) as Hin.
  destruct (partition_ok e Hr) as [[_ [_ [_ [HI _]]]] _]. apply (slot_bound e _ 6 (LCam id) Hr); [lia|]. now apply HI.
Qed.
Lemma fid_bounds : forall e id s, reachable e -> mfind id (s_fid (e_state e)) = Some s -> f_ext s = true ->
  f_index s + 6 <= e_size e.
Proof.
  intros e id s Hr Hf He. pose proof (mfind_in _ _ _ _ Hf) as Hin.
  destruct (partition_ok e Hr) as [[_ [_ [_ [_ [HI _]]]]] _]. apply (slot_bound e _ 6 (LFid id) Hr); [lia|]. now apply HI.
Qed.

Lemma fits_ok : forall r h, commas r = commas h -> fits (OK r) h.
Proof. intros r h H. exists r. split; [reflexivity|]. now rewrite !columns_commas, H. Qed.

Lemma body_fits : forall show e d, plain_show show -> reachable e -> fits (body_row show e d) body_header.
Proof.
  intros show e d H Hr. unfold body_row. pose proof (size_ge e (proj1 (reachable_inv e Hr))) as G.
  destruct (cov_diag_ok e 0 g_body_state_size Hr) as [l [E L]]; [exact G|]. rewrite E. cbn [bind].
  apply fits_ok. rcount H. rewrite L. unfold body_header. hcount. reflexivity.
Qed.

Lemma aug_fits : forall show e, plain_show show -> fits (OK (aug_row show e)) aug_header.
Proof. intros show e H. apply fits_ok. unfold aug_row. rcount H. unfold aug_header. hcount. reflexivity. Qed.

Lemma imu_fits : forall show e id s t acc omg resid d, plain_show show -> reachable e ->
  mfind id (s_imu (e_state e)) = Some s -> nr resid = 6 ->
  fits (imu_row show e id (i_ext s) (i_int s) t acc omg resid d) (imu_header (i_ext s) (i_int s)).
Proof.
  intros show e id s t acc omg resid d H Hr Hf Hres. unfold imu_row, mget. rewrite Hf.
  destruct (imu_bounds e id s Hr Hf) as [L [B _]].
  assert (E : exists c, (if i_ext s || i_int s then let* d := cov_diag e (i_index s) (i_size s) in OK (VectorToCommaString show d)
     else OK ""%string) = OK c /\ commas c = i_size s).
  { destruct (i_ext s || i_int s) eqn:E.
    - destruct (cov_diag_ok e (i_index s) (i_size s) Hr (B eq_refl)) as [l [El Ll]]. rewrite El. cbn [bind].
      eexists; split; [reflexivity|]. now rewrite commas_list.
    - apply orb_false_iff in E. destruct E as [E1 E2]. rewrite E1, E2 in L.
      eexists; split; [reflexivity|]. now rewrite L. }
  destruct E as [c [E C]]. rewrite E. cbn [bind]. apply fits_ok. rcount H. rewrite C, L, Hres.
  unfold imu_header. hcount. destruct (i_ext s), (i_int s); reflexivity.
Qed.

Lemma imu_zero_fits : forall show e id s t score acc omg resid d, plain_show show -> reachable e ->
  mfind id (s_imu (e_state e)) = Some s -> nr resid = (if i_int s then 6 else 3) ->
  fits (imu_zero_row show e id (i_ext s) (i_int s) t score acc omg resid d) (imu_header (i_ext s) (i_int s)).
Proof.
  intros show e id s t score acc omg resid d H Hr Hf Hres. unfold imu_zero_row, mget. rewrite Hf.
  destruct (imu_bounds e id s Hr Hf) as [_ [_ [B1 B2]]].
  destruct (dims_ok e (reachable_inv e Hr)) as [D1 [D2 _]].
  assert (E : forall (b : bool) i, (b = true -> i + 6 <= e_size e) -> exists c,
     (if b then let* d := diag_block (e_cov e) i 6 in OK (VectorToCommaString show (squares d)) else OK ""%string) = OK c /\
     commas c = if b then 6 else 0).
  { intros b i Hb. destruct b; [|eexists; split; reflexivity].
    destruct (diag_block_ok (e_cov e) i 6) as [l [El Ll]]; [specialize (Hb eq_refl); lia|specialize (Hb eq_refl); lia|].
    rewrite El. cbn [bind]. eexists; split; [reflexivity|]. rewrite commas_list by exact H.
    unfold squares. now rewrite map_length. }
  destruct (E (i_ext s) (i_index_ext s) B1) as [c1 [E1 C1]].
  destruct (E (i_int s) (i_index_int s) B2) as [c2 [E2 C2]].
  rewrite E1. cbn [bind]. rewrite E2. cbn [bind]. apply fits_ok. rcount H. rewrite C1, C2, Hres.
  unfold imu_header. hcount. destruct (i_ext s), (i_int s); reflexivity.
Qed.

Lemma gps_fits : forall show show12 e id s t lla pos ref hd resid d, plain_show show -> plain_show show12 -> reachable e ->
  mfind id (s_gps (e_state e)) = Some s ->
  fits (gps_row show show12 e id (g_ext s) t lla pos ref hd resid d) (gps_header (g_ext s)).
Proof.
  intros show show12 e id s t lla pos ref hd resid d H H12 Hr Hf. unfold gps_row, mget. rewrite Hf.
  assert (E : exists c, (if g_ext s then let* d := cov_diag e (g_index s) g_gps_extrinsic_state_size in
       OK (VectorToCommaString show (v3list (g_pos s)) ++ VectorToCommaString show d)%string else OK ""%string) = OK c /\
       commas c = if g_ext s then 6 else 0).
  { destruct (g_ext s) eqn:E; [|eexists; split; reflexivity].
    destruct (cov_diag_ok e (g_index s) 3 Hr (gps_bounds e id s Hr Hf E)) as [l [El Ll]].
    change g_gps_extrinsic_state_size with 3. rewrite El. cbn [bind].
    eexists; split; [reflexivity|]. rcount H. now rewrite Ll. }
  destruct E as [c [E C]]. rewrite E. cbn [bind]. apply fits_ok. rcount H. rewrite !(commas_vec12 _ H12). rewrite C.
  unfold gps_header. hcount. destruct (g_ext s), (e_lla_init e); reflexivity.
Qed.

Lemma fid_fits : forall show e id cam f c dflt t p q resid d, plain_show show -> reachable e ->
  mfind id (s_fid (e_state e)) = Some f -> mfind cam (s_cam (e_state e)) = Some c -> nr resid = 6 ->
  fits (fid_row show e id cam (f_ext f) (c_ext c) dflt t p q resid d) (fid_header (f_ext f) (c_ext c)).
Proof.
  intros show e id cam f c dflt t p q resid d H Hr Hf Hc Hres. unfold fid_row, mget. rewrite Hf, Hc.
  assert (E : exists s, (if f_ext f then let* d := cov_diag e (f_index f) g_fid_extrinsic_state_size in
       OK (VectorToCommaString show (v3list (f_pos f)) ++ QuaternionToCommaString show (f_ang f) ++ VectorToCommaString show d)%string
       else OK ""%string) = OK s /\ commas s = if f_ext f then 13 else 0).
  { destruct (f_ext f) eqn:E; [|eexists; split; reflexivity].
    destruct (cov_diag_ok e (f_index f) 6 Hr (fid_bounds e id f Hr Hf E)) as [l [El Ll]].
    change g_fid_extrinsic_state_size with 6. rewrite El. cbn [bind].
    eexists; split; [reflexivity|]. rcount H. now rewrite Ll. }
  assert (E' : exists s, (if c_ext c then let* d := cov_diag e (c_index c) g_cam_extrinsic_state_size in
       OK (VectorToCommaString show d) else OK ""%string) = OK s /\ commas s = if c_ext c then 6 else 0).
  { destruct (c_ext c) eqn:E1; [|eexists; split; reflexivity].
    destruct (cov_diag_ok e (c_index c) 6 Hr (cam_bounds e cam c Hr Hc E1)) as [l [El Ll]].
    change g_cam_extrinsic_state_size with 6. rewrite El. cbn [bind].
    eexists; split; [reflexivity|]. rcount H. now rewrite Ll. }
  destruct E as [s1 [E1 C1]]. destruct E' as [s2 [E2 C2]]. rewrite E1. cbn [bind]. rewrite E2. cbn [bind].
  apply fits_ok. rcount H. rewrite C1, C2, Hres. unfold fid_header. hcount. destruct (f_ext f), (c_ext c); reflexivity.
Qed.

Lemma msckf_fits : forall show e id c ix t n d, plain_show show -> reachable e ->
  mfind id (s_cam (e_state e)) = Some c -> ix = c_index c ->
  fits (msckf_row show e id (c_ext c) ix t n d) (msckf_header (c_ext c)).
Proof.
  intros show e id c ix t n d H Hr Hf ->. unfold msckf_row, mget. rewrite Hf.
  assert (E' : exists s, (if c_ext c then let* d := cov_diag e (c_index c) g_cam_extrinsic_state_size in
       OK (VectorToCommaString show d) else OK ""%string) = OK s /\ commas s = if c_ext c then 6 else 0).
  { destruct (c_ext c) eqn:E1; [|eexists; split; reflexivity].
    destruct (cov_diag_ok e (c_index c) 6 Hr (cam_bounds e id c Hr Hf E1)) as [l [El Ll]].
    change g_cam_extrinsic_state_size with 6. rewrite El. cbn [bind].
    eexists; split; [reflexivity|]. rcount H. now rewrite Ll. }
  destruct E' as [s2 [E2 C2]]. rewrite E2. cbn [bind].
  apply fits_ok. rcount H. rewrite C2. unfold msckf_header. hcount. destruct (c_ext c); reflexivity.
Qed.

Lemma tri_fits : forall show show3 t f p, plain_show show -> plain_show show3 ->
  fits (OK (tri_row show show3 t f p)) tri_header.
Proof.
  intros show show3 t f p H H3. apply fits_ok. unfold tri_row. rcount H. rewrite (commas_show3 _ H3). reflexivity.
Qed.

Lemma truth_fits : forall show t x, plain_show show ->
  fits (OK (truth_row show t x)) (truth_header (List.length (ts_imus x)) (List.length (ts_cams x)) (List.length (ts_gpss x))).
Proof.
  intros show t x H. apply fits_ok. unfold truth_row, truth_header.
  rewrite !commas_app. rewrite !commas_if.
  set (v := fun p => VectorToCommaString show (v3list p)).
  assert (F1 : forall l s, commas (fold_left (fun s (i : V3 * quat * V3 * V3) => match i with (p, q, ab, gb) =>
      (s ++ v p ++ QuaternionToCommaString show q ++ v ab ++ v gb)%string end) l s) = commas s + 13 * List.length l).
  { induction l as [|[[[p q] ab] gb] l IH]; intros s; cbn [fold_left List.length]; [lia|].
    rewrite IH. unfold v. rcount H. lia. }
  assert (F2 : forall l s, commas (fold_left (fun s (i : V3 * quat) => match i with (p, q) =>
      (s ++ v p ++ QuaternionToCommaString show q)%string end) l s) = commas s + 7 * List.length l).
  { induction l as [|[p q] l IH]; intros s; cbn [fold_left List.length]; [lia|].
    rewrite IH. unfold v. rcount H. lia. }
  unfold v in *. rewrite F1, F2. rewrite (commas_fold (fun g => VectorToCommaString show (v3list g)) 3)
    by (intros; apply (commas_vec _ H)).
  rewrite (commas_fold (fun c => (EnumerateHeader ("imu_pos_" ++ to_string c) 3 ++
      EnumerateHeader ("imu_ang_pos_" ++ to_string c) 4 ++ EnumerateHeader ("imu_acc_bias_" ++ to_string c) 3 ++
      EnumerateHeader ("imu_gyr_bias_" ++ to_string c) 3)%string) 13) by (intros; hcount; reflexivity).
  rewrite (commas_fold (fun c => (EnumerateHeader ("cam_pos_" ++ to_string c) 3 ++
      EnumerateHeader ("cam_ang_pos_" ++ to_string c) 4)%string) 7) by (intros; hcount; reflexivity).
  rewrite (commas_fold (fun c => EnumerateHeader ("gps_pos_" ++ to_string c) 3) 3) by (intros; hcount; reflexivity).
  rewrite !seq_length. rcount H. hcount. destruct (negb _); cbn; lia.
Qed.

Lemma board_fits : forall show id p q, plain_show show -> fits (OK (board_row show id p q)) board_header.
Proof. intros show id p q H. apply fits_ok. unfold board_row. rcount H. reflexivity. Qed.

Lemma feature_fits : forall show i x y z, plain_show show -> fits (OK (feature_row show i x y z)) feature_header.
Proof. intros show i x y z H. apply fits_ok. unfold feature_row. rcount H. reflexivity. Qed.
