(** What no blind measurement can teach the filter of the code. *)
From Coq Require Import Reals List Arith Bool Lia Lra Permutation.
From Verif Require Import Base.Res Base.Mat Base.RDec Base.RSum Base.LinAlg Base.Inverse Base.Geom Base.AMap Base.RMat
  Model.TypeHelper Model.Types Model.MathHelperMat Model.Ekf Model.Updater Model.Ops
  Spec.Layout Spec.History Spec.Contract Spec.Correct Spec.Named Spec.Same Spec.KF Spec.Motion Spec.Noise Spec.ByName Spec.Unsure
  Proofs.Wf Proofs.CovGood Proofs.Invariant Proofs.Named Proofs.Sizes Proofs.ByName Proofs.ByNameClone Proofs.ByNameRun
  Proofs.Chance Proofs.Kernel Proofs.Unsure.
Import ListNotations.
Open Scope R_scope.

Definition more (a : byname) : Prop := kpsd (n_names a) (fun x y => n_cov a x y - common x y).

(** *** What the twin knows *)
Lemma twin_kept : forall e a, twin e a -> kept a.
Proof.
  intros e a T. split.
  - intros k Hk. apply (tw_in _ _ T (LBody k)). apply (nth_error_In _ k). apply at_body. exact Hk.
  - intros cam m k H. destruct (tw_out _ _ T _ H) as [x [Hx E]]. destruct x; try discriminate. cbn [nm] in E. injection E as -> <- ->.
    apply (window_labels e cam pos k (tw_inv _ _ T)) in Hx. rewrite (tw_win _ _ T). lia.
Qed.
Lemma twin_sym : forall e a, twin e a -> forall x y, In x (n_names a) -> In y (n_names a) -> n_cov a x y = n_cov a y x.
Proof.
  intros e a T x y Hx Hy. destruct (twin_at e a x T Hx) as [u [i [Hu [<- [_ Bi]]]]]. destruct (twin_at e a y T Hy) as [v [j [Hv [<- [_ Bj]]]]].
  rewrite <- (cov_at e a u v i j T Hu Hv), <- (cov_at e a v u j i T Hv Hu).
  pose proof (proj2 (tw_inv _ _ T)) as G. unfold is_root in G. unfold covariance. rewrite (tw_root _ _ T) in *. cbn [good stands_for] in *. apply G; assumption.
Qed.
Lemma twin_rates : forall e a, twin e a -> forall x, In x (n_names a) -> 0 <= n_rate a x.
Proof.
  intros e a T x Hx. destruct (twin_at e a x T Hx) as [u [i [Hu [<- [_ Bi]]]]]. rewrite <- (tw_rate _ _ T i u Hu). apply (wf_Qnn _ (proj1 (tw_inv _ _ T))). exact Bi.
Qed.

(** *** Moves *)
Lemma clone_at : forall e a cam p c k, twin e a -> nth_error (aug_at e cam) p = Some c -> (k < 6)%nat -> at_ (e_state e) (LAug cam p k) (a_index c + k).
Proof.
  intros e a cam p c k T H Hk.
  assert (L : In (LAug cam p k) (layout (e_state e))).
  { apply (window_labels e cam p k (tw_inv _ _ T)). split; [apply nth_error_Some; congruence|exact Hk]. }
  destruct (In_nth_error _ _ L) as [i Hi]. pose proof (told_nm e (n_first a) _ i (tw_inv _ _ T) Hi) as Q. cbn [nm told] in Q.
  replace (n_first a cam + p - n_first a cam)%nat with p in Q by lia. rewrite H in Q. cbn in Q. injection Q as ->. exact Hi.
Qed.
Lemma at_clone : forall e a cam p k i, twin e a -> at_ (e_state e) (LAug cam p k) i -> exists c, nth_error (aug_at e cam) p = Some c /\ i = (a_index c + k)%nat.
Proof.
  intros e a cam p k i T H. pose proof (told_nm e (n_first a) _ i (tw_inv _ _ T) H) as Q. cbn [nm told] in Q.
  replace (n_first a cam + p - n_first a cam)%nat with p in Q by lia. destruct (nth_error (aug_at e cam) p) as [c|]; [|discriminate].
  injection Q as <-. exists c. auto.
Qed.
Lemma at_here : forall e a x y i, twin e a -> at_ (e_state e) x i -> at_ (e_state e) y i -> x = y.
Proof. intros e a x y i _ H K. unfold at_ in *. congruence. Qed.
Lemma at_bound : forall e a x i, twin e a -> at_ (e_state e) x i -> (i < e_size e)%nat.
Proof. intros e a x i T H. rewrite <- (proj2 (proj2 (partition_inv e (tw_inv _ _ T)))). apply nth_error_Some. unfold at_ in H. congruence. Qed.

Definition axis (k : nat) : nat -> R := fun j => if Nat.eqb j k then 1 else 0.
Definition shift (e : ekf) (a : byname) (k : nat) : nat -> R :=
  fun i => match nth_error (layout (e_state e)) i with Some x => along k (nm (n_first a) x) | None => 0 end.
Lemma shift_moved : forall e a k, twin e a -> (k < 3)%nat -> moved_along e (axis k) (shift e a k).
Proof.
  intros e a k T Hk. split; [|split].
  - intros j Hj. unfold shift. pose proof (at_body (e_state e) j ltac:(lia)) as A. unfold at_ in A. rewrite A. reflexivity.
  - intros cam c j Hc Hj. destruct (In_nth_error _ _ Hc) as [p Hp]. pose proof (clone_at e a cam p c j T Hp ltac:(lia)) as A. unfold at_ in A.
    unfold shift. rewrite A. reflexivity.
  - intros i Hi Li NC. unfold shift. destruct (nth_error (layout (e_state e)) i) as [x|] eqn:E; [|reflexivity].
    destruct x; cbn [nm along]; try reflexivity.
    + destruct (Nat.eqb_spec k0 k) as [->|]; [|reflexivity]. exfalso.
      pose proof (at_body (e_state e) k ltac:(lia)) as A. pose proof (proj1 (proj2 (partition_inv e (tw_inv _ _ T)))) as N.
      assert (i = k); [|lia]. apply (proj1 (NoDup_nth_error _) N); [apply nth_error_Some; congruence|]. unfold at_ in A. congruence.
    + destruct (Nat.eqb_spec k0 k) as [->|]; [|reflexivity]. exfalso. destruct (at_clone e a key pos k i T E) as [c [Hc ->]].
      apply (NC key c k (nth_error_In _ _ Hc) Hk). reflexivity.
Qed.
Lemma moved_shift : forall e a k w i x, twin e a -> (k < 3)%nat -> moved_along e (axis k) w -> at_ (e_state e) x i -> w i = along k (nm (n_first a) x).
Proof.
  intros e a k w i x T Hk [M1 [M2 M3]] A. pose proof (at_bound e a x i T A) as Bi.
  assert (LOW : forall j, (j < 3)%nat -> i = j -> x = LBody j).
  { intros j Hj ->. apply (at_here e a _ _ j T A). apply at_body. lia. }
  destruct (Nat.lt_ge_cases i 3) as [Li|Li].
  { rewrite (LOW i Li eq_refl). cbn [nm along]. rewrite M1 by exact Li. reflexivity. }
  assert (ELSE : (exists cam c j, In c (aug_at e cam) /\ (j < 3)%nat /\ i = (a_index c + j)%nat) \/
    (forall cam c j, In c (aug_at e cam) -> (j < 3)%nat -> i <> (a_index c + j)%nat)).
  { destruct x as [j|id j|id j|id j|id j|id j|cam p j].
    7:{ destruct (at_clone e a cam p j i T A) as [c [Hc ->]]. destruct (Nat.lt_ge_cases j 3) as [Lj|Lj].
        - left. exists cam, c, j. split; [eapply nth_error_In; exact Hc|]. split; [exact Lj|reflexivity].
        - right. intros cam' c' j' Hc' Hj' E. destruct (In_nth_error _ _ Hc') as [p' Hp']. pose proof (clone_at e a cam' p' c' j' T Hp' ltac:(lia)) as A'.
          rewrite <- E in A'. pose proof (at_here e a _ _ _ T A A') as Q. injection Q as -> -> ->. lia. }
    all: right; intros cam' c' j' Hc' Hj' E; destruct (In_nth_error _ _ Hc') as [p' Hp']; pose proof (clone_at e a cam' p' c' j' T Hp' ltac:(lia)) as A';
      rewrite <- E in A'; pose proof (at_here e a _ _ _ T A A') as Q; discriminate. }
  destruct ELSE as [[cam [c [j [Hc [Hj ->]]]]]|NC].
  - rewrite (M2 cam c j Hc Hj). destruct (In_nth_error _ _ Hc) as [p Hp]. pose proof (clone_at e a cam p c j T Hp ltac:(lia)) as A'.
    rewrite (at_here e a _ _ _ T A A'). reflexivity.
  - rewrite (M3 i Bi Li NC). destruct x; cbn [nm along]; try reflexivity.
    + destruct (Nat.eqb_spec k0 k) as [->|]; [|reflexivity]. exfalso. pose proof (at_body (e_state e) k ltac:(lia)) as A'.
      pose proof (proj1 (proj2 (partition_inv e (tw_inv _ _ T)))) as N.
      assert (i = k); [|lia]. apply (proj1 (NoDup_nth_error _) N); [apply nth_error_Some; unfold at_ in A; congruence|]. unfold at_ in *. congruence.
    + destruct (Nat.eqb_spec k0 k) as [->|]; [|reflexivity]. exfalso. destruct (at_clone e a key pos k i T A) as [c [Hc ->]].
      apply (NC key c k (nth_error_In _ _ Hc) Hk). reflexivity.
Qed.
Lemma blind_none : forall e a jac H, twin e a -> columns e a jac H -> blind e jac -> sees_none (n_names a) (nr jac) H.
Proof.
  intros e a jac H T C B i k Hi Hk. rewrite (over_names e a _ (fun j => ent jac i j * shift e a k j) T).
  - apply (B (axis k)); [apply shift_moved; assumption|exact Hi].
  - intros j x A. unfold shift. unfold at_ in A. rewrite A. f_equal.
    apply (C i (nm (n_first a) x) j Hi); [apply (tw_in _ _ T); eapply nth_error_In; exact A|]. apply told_nm; [apply T|exact A].
Qed.

(** *** One call *)
Lemma more_same : forall a b, n_names b = n_names a -> n_cov b = n_cov a -> more a -> more b.
Proof. intros a b E1 E2 M. unfold more. rewrite E1, E2. exact M. Qed.
Lemma kept_same : forall a b, n_names b = n_names a -> n_next b = n_next a -> kept a -> kept b.
Proof. intros a b E1 E2 [K1 K2]. split; rewrite ?E1, ?E2; assumption. Qed.
Lemma more_drop : forall a cam d, more a -> more (nm_drop a cam d).
Proof. intros a cam d M. eapply kpsd_sub; [|exact M]. intros x Hx. cbn in Hx. apply filter_In in Hx. tauto. Qed.
Lemma kept_drop : forall a cam d, kept a -> kept (nm_drop a cam d).
Proof.
  intros a cam d [K1 K2]. split.
  - intros k Hk. cbn. apply filter_In. split; [apply K1; exact Hk|reflexivity].
  - intros c m k H. cbn in H. apply filter_In in H. apply (K2 _ _ _ (proj1 H)).
Qed.
Lemma more_settle : forall mode w a, kept a -> more a -> more (nm_settle mode w a).
Proof.
  assert (X : forall (w : nat * bool) a, kept a -> more a ->
    more (let a := if (0 <? fst w)%nat then nm_refresh (nm_drop a 0 (fst w)) else a in if snd w then nm_refresh (nm_clone a 0) else a)).
  { intros w a K M. cbv zeta. set (b := if (0 <? fst w)%nat then nm_refresh (nm_drop a 0 (fst w)) else a).
    assert (KB : kept b /\ more b).
    { unfold b. destruct (0 <? fst w)%nat; [|auto]. split.
      - eapply kept_same; [reflexivity|reflexivity|]. apply kept_drop. exact K.
      - eapply more_same; [reflexivity|reflexivity|]. apply more_drop. exact M. }
    destruct (snd w); [|apply KB]. eapply more_same; [reflexivity|reflexivity|]. apply more_clone; apply KB. }
  intros mode w a K M. destruct mode; cbn [nm_settle]; try exact M; apply X; assumption.
Qed.

Lemma psd_len : forall m n P, psd n P -> m = n -> psd m P.
Proof. intros m n P H ->. exact H. Qed.
Lemma ncopies_length : forall n f, length (ncopies n f) = n.
Proof. intros. unfold ncopies. rewrite map_length, seq_length. reflexivity. Qed.
Lemma along_ncopies : forall n f k x, In x (ncopies n f) -> (forall j, along k (f j) = 0) -> along k x = 0.
Proof. intros n f k x H F. unfold ncopies in H. apply in_map_iff in H. destruct H as [j [<- _]]. apply F. Qed.

Lemma step_more : forall e a c w, twin e a -> contract e (op_of c) -> in_order a c ->
  match c with Measure H jac _ _ => columns e a jac H /\ blind e jac | _ => True end ->
  more a -> more (nm_step (p_aug (e_par e)) w a c).
Proof.
  intros e a c w T C O B M. pose proof (twin_kept e a T) as K. pose proof (tw_root _ _ T) as RT.
  destruct c as [o|H jac res noise]; cbn [nm_step op_of] in *.
  2:{ destruct B as [B1 B2]. cbn [contract] in C. rewrite RT in C. destruct C as (_ & _ & _ & _ & _ & P).
      apply more_measured; [apply (twin_sym e a T)|exact M|exact P|apply (blind_none e a jac H T B1 B2)]. }
  destruct o; cbn [contract] in C; rewrite ?RT in C; try exact M.
  - unfold nm_imu. destruct (known id (n_imus a)) eqn:Kn; [exact M|].
    assert (F : mfind id (s_imu (e_state e)) = None).
    { destruct (mfind id (s_imu (e_state e))) eqn:E; [|reflexivity]. exfalso. assert (known id (n_imus a) = true); [|congruence].
      apply (known_find _ id _ _ (tw_imus _ _ T)). congruence. }
    destruct (C F) as [S1 [[_ [_ P]] _]].
    eapply more_same; [reflexivity|reflexivity|]. apply more_enrol; [|eapply psd_len; [exact P|]|exact M].
    + intros k x _ Hx. unfold imu_names in Hx. apply in_app_or in Hx. destruct Hx as [Hx|Hx]; [destruct (i_ext st)|destruct (i_int st)];
        first [destruct Hx; fail|eapply along_ncopies; [exact Hx|reflexivity]].
    + rewrite S1. unfold imu_labels, imu_names. cbn [fst snd]. rewrite !app_length. destruct (i_ext st), (i_int st); reflexivity.
  - unfold nm_gps. destruct (known id (n_gpss a)) eqn:Kn; [exact M|].
    assert (F : mfind id (s_gps (e_state e)) = None).
    { destruct (mfind id (s_gps (e_state e))) eqn:E; [|reflexivity]. exfalso. assert (known id (n_gpss a) = true); [|congruence].
      apply (known_find _ id _ _ (tw_gpss _ _ T)). congruence. }
    destruct (C F) as [S1 [[_ [_ P]] _]].
    eapply more_same; [reflexivity|reflexivity|]. apply more_enrol; [|eapply psd_len; [exact P|]|exact M].
    + intros k x _ Hx. unfold gps_names in Hx. destruct (g_ext st); first [destruct Hx; fail|eapply along_ncopies; [exact Hx|reflexivity]].
    + rewrite S1. unfold gps_labels, gps_names. cbn [fst snd]. destruct (g_ext st); reflexivity.
  - unfold nm_cam. destruct (known id (n_cams a)) eqn:Kn; [exact M|].
    assert (F : mfind id (s_cam (e_state e)) = None).
    { destruct (mfind id (s_cam (e_state e))) eqn:E; [|reflexivity]. exfalso. assert (known id (n_cams a) = true); [|congruence].
      apply (known_find _ id _ _ (tw_cams _ _ T)). congruence. }
    destruct (C F) as [S1 [[_ [_ P]] _]].
    eapply more_same; [reflexivity|reflexivity|]. apply more_enrol; [|eapply psd_len; [exact P|]|exact M].
    + intros k x _ Hx. unfold cam_names in Hx. destruct (c_ext st); first [destruct Hx; fail|eapply along_ncopies; [exact Hx|reflexivity]].
    + rewrite S1. unfold cam_labels, cam_names. cbn [fst snd]. destruct (c_ext st); reflexivity.
  - unfold nm_fid. destruct (known (f_id st) (n_fids a)) eqn:Kn; [exact M|].
    assert (F : mfind (f_id st) (s_fid (e_state e)) = None).
    { destruct (mfind (f_id st) (s_fid (e_state e))) eqn:E; [|reflexivity]. exfalso. assert (known (f_id st) (n_fids a) = true); [|congruence].
      apply (known_find _ (f_id st) _ _ (tw_fids _ _ T)). congruence. }
    destruct (C F) as [S1 [[_ [_ P]] _]].
    eapply more_same; [reflexivity|reflexivity|]. apply more_enrol; [|eapply psd_len; [exact P|]|exact M].
    + intros k x _ Hx. unfold fid_names in Hx. destruct (f_ext st); first [destruct Hx; fail|eapply along_ncopies; [exact Hx|reflexivity]].
    + rewrite S1. unfold fid_labels, fid_names. cbn [fst snd]. destruct (f_ext st); reflexivity.
  - destruct (Rltb t (n_time a)) eqn:E; [exact M|]. apply more_settle.
    + eapply kept_same; [| |exact K]; unfold nm_predict; rewrite E; cbv zeta; destruct (n_gravity a); reflexivity.
    + apply more_predict; [exact K|apply T|apply (twin_rates e a T)|exact E|exact M].
  - unfold nm_frame. destruct (match p_aug (e_par e) with AAll => true | APrimary => (cam =? n_primary a)%nat | _ => false end); [|exact M].
    cbv zeta. eapply more_same; [reflexivity|reflexivity|]. destruct (n_max a <=? n_next a cam - n_first a cam)%nat.
    + apply more_clone; [apply kept_drop; exact K|apply more_drop; exact M].
    + apply more_clone; assumption.
  - apply more_settle; assumption.
  - destruct (n_started a); exact M.
Qed.
Lemma init_more : forall q, more (nm_init q).
Proof.
  intros q. unfold more. cbn [n_names n_cov nm_init].
  apply (kpsd_ext _ (fun x y => if name_dec x y then (1 / 100 - common x x) else 0)).
  - intros x y Hx Hy. unfold ncopies in *. apply in_map_iff in Hx. apply in_map_iff in Hy. destruct Hx as [i [<- _]], Hy as [j [<- _]].
    destruct (name_dec (NBody i) (NBody j)) as [E|E]; [injection E as ->; reflexivity|].
    unfold common. cbn [along].
    destruct (Nat.eqb_spec i 0), (Nat.eqb_spec j 0), (Nat.eqb_spec i 1), (Nat.eqb_spec j 1), (Nat.eqb_spec i 2), (Nat.eqb_spec j 2); subst; try lia; try congruence; lra.
  - apply (kpsd_diag _ (fun x => 1 / 100 - common x x)).
    + apply FinFun.Injective_map_NoDup; [intros i j X; congruence|apply seq_NoDup].
    + intros x Hx. unfold ncopies in Hx. apply in_map_iff in Hx. destruct Hx as [i [<- _]]. unfold common. cbn [along].
      destruct (Nat.eqb_spec i 0), (Nat.eqb_spec i 1), (Nat.eqb_spec i 2); subst; try lia; lra.
Qed.

(** *** What it means for the matrix *)
Definition listed (e : ekf) (a : byname) (x : nat -> R) : weights :=
  map (fun p => (x (fst p), nm (n_first a) (snd p))) (combine (seq 0 (e_size e)) (layout (e_state e))).
Lemma wsum_seq : forall (x : nat -> R) (f : label -> name) L s g (h : nat -> R), (forall i y, nth_error L i = Some y -> h (s + i)%nat = g (f y)) ->
  wsum (map (fun p => (x (fst p), f (snd p))) (combine (seq s (length L)) L)) g = rsum (length L) (fun i => x (s + i)%nat * h (s + i)%nat).
Proof.
  intros x f L. induction L as [|y L IH]; intros s g h Hh; [reflexivity|]. cbn [length seq combine map fst snd]. rewrite wsum_cons.
  rewrite (IH (S s) g h).
  - rewrite <- (Hh 0%nat y eq_refl). change (S (length L)) with (1 + length L)%nat. rewrite rsum_split. cbn [rsum]. rewrite Nat.add_0_r.
    rewrite Rplus_0_l. f_equal. apply rsum_ext. intros i _. rewrite Nat.add_succ_r. reflexivity.
  - intros i z Hz. rewrite <- (Hh (S i) z Hz). f_equal. lia.
Qed.
Lemma wsum_listed : forall e a x g h, twin e a -> (forall i y, at_ (e_state e) y i -> h i = g (nm (n_first a) y)) ->
  wsum (listed e a x) g = rsum (e_size e) (fun i => x i * h i).
Proof.
  intros e a x g h T Hh. unfold listed. pose proof (proj2 (proj2 (partition_inv e (tw_inv _ _ T)))) as L. rewrite <- L.
  apply (wsum_seq x (nm (n_first a)) (layout (e_state e)) 0 g h). exact Hh.
Qed.
Lemma listed_in : forall e a x, twin e a -> within (n_names a) (listed e a x).
Proof.
  intros e a x T w y H. unfold listed in H. apply in_map_iff in H. destruct H as [[i z] [E H]]. injection E as <- <-. apply (tw_in _ _ T).
  apply in_combine_r in H. exact H.
Qed.
Lemma more_unsure : forall e a, twin e a -> more a -> unsure e (1 / 100).
Proof.
  intros e a T M x w0 w1 w2 W0 W1 W2. cbv zeta. pose proof (M _ (listed_in e a x T)) as Q. rewrite form_minus, form_common in Q.
  rewrite (wsum_listed e a x (along 0) w0 T) in Q by (intros; apply (moved_shift e a 0 w0 i y T); [lia|exact W0|assumption]).
  rewrite (wsum_listed e a x (along 1) w1 T) in Q by (intros; apply (moved_shift e a 1 w1 i y T); [lia|exact W1|assumption]).
  rewrite (wsum_listed e a x (along 2) w2 T) in Q by (intros; apply (moved_shift e a 2 w2 i y T); [lia|exact W2|assumption]).
  assert (F : form (n_cov a) (listed e a x) = qf (e_size e) (covariance e) x).
  { unfold form. rewrite (wsum_listed e a x _ (fun i => rsum (e_size e) (fun j => x j * covariance e i j)) T).
    - rewrite qf_expand. apply rsum_ext. intros i _. rewrite <- rsum_scal_l. apply rsum_ext. intros j _. ring.
    - intros i y A. symmetry. apply wsum_listed; [exact T|]. intros j z B. apply (cov_at e a y z i j T A B). }
  rewrite F in Q. lra.
Qed.

(** *** Whole histories *)
Lemma run_unsure : forall l e a e', reachable e -> twin e a -> more a -> respects e (map op_of l) -> valid (p_aug (e_par e)) e a l -> all_blind e l ->
  run e (map op_of l) = OK e' -> exists a', twin e' a' /\ more a'.
Proof.
  induction l as [|c l IH]; intros e a e' Hr T M RS V B E.
  - injection E as <-. exists a. auto.
  - cbn [map run] in E. destruct (step e (op_of c)) as [e1|] eqn:E1; cbn [bind] in E; [|discriminate].
    destruct RS as [C RS]. destruct V as [V1 [V2 V3]]. destruct B as [B1 B2].
    pose proof (step_twin e a c e1 Hr T C V1 V2 E1) as T1. pose proof (reachable_step e (op_of c) e1 Hr C E1) as Hr1.
    pose proof (par_step e (op_of c) e1 (reachable_inv e Hr) C E1) as P.
    assert (M1 : more (nm_step (p_aug (e_par e)) (taken e e1) a c)).
    { apply (step_more e a c _ T C V1); [|exact M]. destruct c; [exact I|split; assumption]. }
    apply (IH e1 _ e' Hr1 T1 M1); [apply RS; exact E1|rewrite P; apply V3; exact E1|apply B2; exact E1|exact E].
Qed.
Theorem never_surer : forall p q pe an l e, noise_arg q -> p_root p = false ->
  respects (EKF_init p q pe an) (map op_of l) -> valid (p_aug p) (EKF_init p q pe an) (nm_init q) l -> all_blind (EKF_init p q pe an) l ->
  run (EKF_init p q pe an) (map op_of l) = OK e -> unsure e (1 / 100).
Proof.
  intros p q pe an l e Hq RT RS V B E.
  destruct (run_unsure l (EKF_init p q pe an) (nm_init q) e) as [a [T M]]; try assumption.
  - exists p, q, pe, an, []. split; [exact Hq|]. split; [exact Logic.I|reflexivity].
  - apply init_twin; assumption.
  - apply init_more.
  - apply (more_unsure e a T M).
Qed.
