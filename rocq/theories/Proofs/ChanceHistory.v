(** Whole histories of the filter of the code and the errors along them. *)
From Coq Require Import Reals List Arith Bool Lia Lra.
From Verif Require Import Base.Res Base.Mat Base.RDec Base.RSum Base.LinAlg Base.Inverse Base.Geom Base.AMap Base.RMat Model.Types Model.Ekf Model.Ops
  Spec.Layout Spec.Contract Spec.Named Spec.ByName Spec.Chance Proofs.Demo Proofs.ByName Proofs.ByNameRun Proofs.ByNameDemo Proofs.Invariant Proofs.Named Proofs.RegRefute Proofs.Sizes Proofs.Follows Proofs.WindowSize Proofs.Chance Proofs.ChanceExists.
Import ListNotations.
Open Scope R_scope.

Lemma covariance_of_errors : forall p q pe an l e A (L : law A) err err', noise_arg q -> p_root p = false ->
  respects (EKF_init p q pe an) (map op_of l) -> valid (p_aug p) (EKF_init p q pe an) (nm_init q) l ->
  run (EKF_init p q pe an) (map op_of l) = OK e -> chances L -> initial L err ->
  let h := combine l (decisions (EKF_init p q pe an) l) in
  let b := nm_run (p_aug p) (nm_init q) h in
  lives L (p_aug p) (nm_init q) err h err' ->
  forall x y i j, In x (n_names b) -> In y (n_names b) -> told e (n_first b) x = Some i -> told e (n_first b) y = Some j ->
    mean L (fun a => err' a x) = 0 /\ spread L (fun a => err' a x) (fun a => err' a y) = covariance e i j.
Proof.
  intros p q pe an l e A L err err' Hq Hr RS V E W I h b Lv x y i j Hx Hy Ti Tj.
  pose proof (history_agrees p q pe an l e Hq Hr RS V E) as AG. fold h in AG. fold b in AG.
  destruct (run_fine L (p_aug p) h (nm_init q) err err' W (init_fine L q err I) Lv) as [_ G]. fold b in G.
  destruct (G x y Hx Hy) as [M S]. split; [exact M|]. rewrite S. symmetry. apply (ag_cov _ _ AG x y i j Hx Hy Ti Tj).
Qed.

Lemma combine_last : forall l c e e1 e2, run e (map op_of l) = OK e1 -> step e1 (op_of c) = OK e2 ->
  combine (l ++ [c]) (decisions e (l ++ [c])) = combine l (decisions e l) ++ [(c, taken e1 e2)].
Proof.
  induction l as [|d t IH]; intros c e e1 e2 E S.
  - cbn in E. injection E as <-. cbn [app decisions]. rewrite S. reflexivity.
  - cbn [map run] in E. cbn [app decisions]. destruct (step e (op_of d)) as [e'|]; [|discriminate]. cbn [combine app]. rewrite (IH c e' e1 e2 E S). reflexivity.
Qed.

Lemma last_respected : forall l c e e1, respects e (map op_of (l ++ [c])) -> run e (map op_of l) = OK e1 -> respects e (map op_of l) /\ contract e1 (op_of c).
Proof.
  induction l as [|d t IH]; intros c e e1 RS E.
  - cbn in *. injection E as <-. split; [exact I|apply RS].
  - cbn [map app respects run] in *. destruct RS as [C RS]. destruct (step e (op_of d)) as [e'|]; [|discriminate].
    destruct (IH c e' e1 (RS e' eq_refl) E) as [T G]. split; [|exact G]. split; [exact C|]. intros e'' X. injection X as <-. exact T.
Qed.

Lemma misjudged0 : forall p q pe an l H jac res N e e' A (L : law A) err err1 err2 v N0, noise_arg q -> p_root p = false ->
  respects (EKF_init p q pe an) (map op_of (l ++ [Measure H jac res N])) ->
  valid (p_aug p) (EKF_init p q pe an) (nm_init q) (l ++ [Measure H jac res N]) ->
  run (EKF_init p q pe an) (map op_of l) = OK e -> step e (OKalman jac res N) = OK e' ->
  chances L -> initial L err ->
  let h := combine l (decisions (EKF_init p q pe an) l) in
  let b := nm_run (p_aug p) (nm_init q) h in
  lives L (p_aug p) (nm_init q) err h err1 ->
  noise_of L (n_names b) (nr jac) N0 err1 v -> gained (weight b (nr jac) H N) (nr jac) (n_names b) H v err1 err2 ->
  forall x y i j, In x (n_names b) -> In y (n_names b) -> told e' (n_first b) x = Some i -> told e' (n_first b) y = Some j ->
    mean L (fun a => err2 a x) = 0 /\
    spread L (fun a => err2 a x) (fun a => err2 a y) = covariance e' i j +
      rsum (nr jac) (fun k => rsum (nr jac) (fun k' => weight b (nr jac) H N x k * (N0 k k' - ent N k k') * weight b (nr jac) H N y k')).
Proof.
  intros p q pe an l H jac res N e e' A L err err1 err2 v N0 Hq Hr RS V E S W I h b Lv NV G x y i j Hx Hy Ti Tj.
  assert (E' : run (EKF_init p q pe an) (map op_of (l ++ [Measure H jac res N])) = OK e').
  { rewrite map_app, run_app, E. cbn [bind map run op_of]. rewrite S. reflexivity. }
  destruct (last_respected l _ _ e RS E) as [RS1 C1].
  assert (P : spd (nr jac) (ent N)).
  { cbn [op_of contract] in C1. assert (PE : e_par e = p).
    { rewrite (run_par (map op_of l) (EKF_init p q pe an) e); [reflexivity| |exact RS1|exact E].
      apply reachable_inv. exists p, q, pe, an, []. split; [exact Hq|]. split; [exact Logic.I|reflexivity]. }
    rewrite PE, Hr in C1. apply C1. }
  pose proof (history_agrees p q pe an _ e' Hq Hr RS V E') as AG.
  rewrite (combine_last l (Measure H jac res N) _ e e' E S) in AG. unfold nm_run in AG. rewrite fold_left_app in AG. cbn [fold_left fst snd nm_step] in AG.
  change (fold_left _ (combine l _) (nm_init q)) with b in AG.
  destruct (run_fine L (p_aug p) h (nm_init q) err err1 W (init_fine L q err I) Lv) as [_ F]. fold b in F.
  destruct (measured_spread L b (nr jac) H err1 v N N0 W F NV P err2 G x y Hx Hy) as [M C]. split; [exact M|].
  rewrite (ag_cov _ _ AG x y i j Hx Hy Ti Tj). exact C.
Qed.

(** Noise overestimated: never more certain than right.  Underestimated:
    never less certain. *)
Lemma weighted : forall m (D : fmat) (K : nat -> R), rsum m (fun k => rsum m (fun k' => K k * D k k' * K k')) = qf m D K.
Proof. intros. symmetry. apply qf_expand. Qed.
Lemma misjudged_less : forall m (D : fmat) (K : nat -> R) s c, psd m (fun i j => - D i j) ->
  s = c + rsum m (fun k => rsum m (fun k' => K k * D k k' * K k')) -> s <= c.
Proof.
  intros m D K s c [_ P] ->. specialize (P K). rewrite qf_expand in P.
  rewrite (rsum_ext m _ (fun i => - rsum m (fun j => K i * D i j * K j))) in P.
  - rewrite rsum_opp in P. lra.
  - intros i _. rewrite <- rsum_opp. apply rsum_ext. intros j _. ring.
Qed.
Lemma misjudged_more : forall m (D : fmat) (K : nat -> R) s c, psd m D ->
  s = c + rsum m (fun k => rsum m (fun k' => K k * D k k' * K k')) -> c <= s.
Proof. intros m D K s c [_ P] ->. specialize (P K). rewrite qf_expand in P. lra. Qed.

(** *** How often an error is large *)
Lemma markov : forall A (L : law A) (f : A -> R) t, (forall w a, In (w, a) L -> 0 <= w) -> (forall a, 0 <= f a) -> 0 <= t ->
  t * mean L (fun a => if Rltb t (f a) then 1 else 0) <= mean L f.
Proof.
  intros A L f t W F T. induction L as [|[w a] r IH]; cbn; [lra|].
  assert (Hw : 0 <= w) by (apply (W w a); left; reflexivity).
  assert (IH' : t * mean r (fun a => if Rltb t (f a) then 1 else 0) <= mean r f) by (apply IH; intros; eapply W; right; eassumption).
  specialize (F a). pose proof (Rmult_le_pos _ _ Hw F) as WF. destruct (Rltb t (f a)) eqn:E; [apply Rltb_spec in E; pose proof (Rmult_le_compat_l w t (f a) Hw (Rlt_le _ _ E))|]; lra.
Qed.
Lemma chebyshev : forall A (L : law A) f c k, chances L -> mean L f = 0 -> spread L f f = c -> 0 < c -> 0 < k ->
  chance L (fun a => Rltb (k * sqrt c) (Rabs (f a))) <= 1 / (k * k).
Proof.
  intros A L f c k [W T] M S C K. unfold chance.
  assert (X : mean L (fun a => f a * f a) = c).
  { rewrite <- S. unfold spread. rewrite M. apply mean_ext. intros a. ring. }
  assert (E : forall a, Rltb (k * sqrt c) (Rabs (f a)) = Rltb (k * k * c) (f a * f a)).
  { intros a. pose proof (sqrt_lt_R0 c C) as Q. pose proof (sqrt_sqrt c) as QQ. assert (0 < k * sqrt c) by (apply Rmult_lt_0_compat; assumption).
    assert (E2 : f a * f a = Rabs (f a) * Rabs (f a)) by (rewrite <- Rabs_mult; apply eq_sym, Rabs_pos_eq; apply Rle_0_sqr).
    pose proof (Rabs_pos (f a)). rewrite E2. destruct (Rltb (k * k * c) (Rabs (f a) * Rabs (f a))) eqn:G.
    - apply Rltb_spec in G. apply Rltb_true. destruct (Rlt_le_dec (k * sqrt c) (Rabs (f a))) as [|L1]; [assumption|exfalso].
      assert (Rabs (f a) * Rabs (f a) <= k * sqrt c * (k * sqrt c)) by (apply Rmult_le_compat; lra).
      replace (k * sqrt c * (k * sqrt c)) with (k * k * (sqrt c * sqrt c)) in H1 by ring. rewrite QQ in H1 by lra. lra.
    - apply Rltb_false in G. apply Rltb_false. destruct (Rle_lt_dec (Rabs (f a)) (k * sqrt c)) as [|L1]; [assumption|exfalso].
      assert (k * sqrt c * (k * sqrt c) < Rabs (f a) * Rabs (f a)) by (apply Rmult_le_0_lt_compat; lra).
      replace (k * sqrt c * (k * sqrt c)) with (k * k * (sqrt c * sqrt c)) in H1 by ring. rewrite QQ in H1 by lra. lra. }
  rewrite (mean_ext L _ (fun a => if Rltb (k * k * c) (f a * f a) then 1 else 0)) by (intros a; rewrite E; reflexivity).
  assert (P : 0 < k * k * c) by (repeat apply Rmult_lt_0_compat; assumption).
  pose proof (markov A L (fun a => f a * f a) (k * k * c) W (fun a => Rle_0_sqr (f a)) (Rlt_le _ _ P)) as Y. rewrite X in Y.
  set (m := mean L _) in *. apply (Rmult_le_reg_l (k * k * c)); [exact P|]. replace (k * k * c * (1 / (k * k))) with c by (field; lra). exact Y.
Qed.
Lemma rarely_large : forall p q pe an l e A (L : law A) err err', noise_arg q -> p_root p = false ->
  respects (EKF_init p q pe an) (map op_of l) -> valid (p_aug p) (EKF_init p q pe an) (nm_init q) l ->
  run (EKF_init p q pe an) (map op_of l) = OK e -> chances L -> initial L err ->
  let h := combine l (decisions (EKF_init p q pe an) l) in
  let b := nm_run (p_aug p) (nm_init q) h in
  lives L (p_aug p) (nm_init q) err h err' ->
  forall x i k, In x (n_names b) -> told e (n_first b) x = Some i -> 0 < covariance e i i -> 0 < k ->
    chance L (fun a => Rltb (k * sqrt (covariance e i i)) (Rabs (err' a x))) <= 1 / (k * k).
Proof.
  intros p q pe an l e A L err err' Hq Hr RS V E W I h b Lv x i k Hx Ti P K.
  destruct (covariance_of_errors p q pe an l e A L err err' Hq Hr RS V E W I Lv x x i i Hx Hx Ti Ti) as [M S].
  apply chebyshev; assumption.
Qed.

(** *** The demonstration *)
Lemma demo_join : forall l stab, (forall x, In x l -> 0 <= stab x) -> can_join l (demo_cov (length l)) stab.
Proof. intros l stab H. split; [|exact H]. apply (demo_cov_arg false (length l)). Qed.
Lemma demo_decent : forall (ws : list (nat * bool)) c w, In (c, w) (combine demo_calls ws) -> decent c.
Proof.
  intros ws c w H. apply in_combine_l in H.
  assert (E9 : 0 <= e9) by (unfold e9; lra).
  unfold demo_calls, demo_ops in H. cbn [tl map In] in H.
  repeat (destruct H as [<-|H]; [try exact I|]); try destruct H.
  - apply (demo_meas false).
  - cbn [decent]. apply (demo_join (imu_names 1 demo_imu)). intros x Hx. destruct x; try apply Rle_refl; cbn [imu_stab cam_stab fid_stab]; destruct (k <? 3)%nat; exact E9.
  - cbn [decent]. apply (demo_join (gps_names 3 demo_gps)). intros x Hx. exact E9.
  - cbn [decent]. apply (demo_join (cam_names 2 demo_cam)). intros x Hx. destruct x; try apply Rle_refl; cbn [imu_stab cam_stab fid_stab]; destruct (k <? 3)%nat; exact E9.
  - cbn [decent]. apply (demo_join (fid_names (f_id demo_fid) demo_fid)). intros x Hx. destruct x; try apply Rle_refl; cbn [imu_stab cam_stab fid_stab]; destruct (k <? 3)%nat; exact E9.
  - cbn [decent]. apply (demo_join (imu_names 1 demo_imu)). intros x Hx. destruct x; try apply Rle_refl; cbn [imu_stab cam_stab fid_stab]; destruct (k <? 3)%nat; exact E9.
  - cbn [decent]. apply demo_noise_arg.
Qed.

Lemma misjudged : forall A p q pe an l H jac res N e e' (L : law A) err1 err2 N0,
  misjudging A p q pe an l H jac res N e e' L err1 err2 N0 ->
  let b := nm_run (p_aug p) (nm_init q) (combine l (decisions (EKF_init p q pe an) l)) in
  forall x y i j, In x (n_names b) -> In y (n_names b) -> told e' (n_first b) x = Some i -> told e' (n_first b) y = Some j ->
    mean L (fun a => err2 a x) = 0 /\
    spread L (fun a => err2 a x) (fun a => err2 a y) = covariance e' i j +
      rsum (nr jac) (fun k => rsum (nr jac) (fun k' => weight b (nr jac) H N x k * (N0 k k' - ent N k k') * weight b (nr jac) H N y k')).
Proof.
  intros A p q pe an l H jac res N e e' L err1 err2 N0 (H1 & H2 & H3 & H4 & H5 & H6 & H7 & (err & H8 & H9) & v & H10 & H11).
  exact (misjudged0 p q pe an l H jac res N e e' A L err err1 err2 v N0 H1 H2 H3 H4 H5 H6 H7 H8 H9 H10 H11).
Qed.
Lemma over_under : forall A p q pe an l H jac res N e e' (L : law A) err1 err2 N0,
  misjudging A p q pe an l H jac res N e e' L err1 err2 N0 ->
  let b := nm_run (p_aug p) (nm_init q) (combine l (decisions (EKF_init p q pe an) l)) in
  forall x i, In x (n_names b) -> told e' (n_first b) x = Some i ->
    (psd (nr jac) (fun k k' => ent N k k' - N0 k k') -> spread L (fun a => err2 a x) (fun a => err2 a x) <= covariance e' i i) /\
    (psd (nr jac) (fun k k' => N0 k k' - ent N k k') -> covariance e' i i <= spread L (fun a => err2 a x) (fun a => err2 a x)).
Proof.
  intros A p q pe an l H jac res N e e' L err1 err2 N0 S b x i Hx Ti.
  destruct (misjudged A p q pe an l H jac res N e e' L err1 err2 N0 S x x i i Hx Hx Ti Ti) as [_ E]. split; intros P.
  - eapply misjudged_less; [|exact E]. eapply psd_ext; [|exact P]. intros k k' _ _. cbv beta. ring.
  - eapply misjudged_more; [|exact E]. exact P.
Qed.
Lemma misjudged_demo : exists e e' (L : law outcome) err1 err2,
  misjudging outcome (demo_par AAll false) demo_noise v0 0 [] demo_row demo_jac demo_res demo_meas_noise e e' L err1 err2 (diagm (fun _ => 4)).
Proof.
  set (e0 := EKF_init (demo_par AAll false) demo_noise v0 0).
  assert (P4 : psd 1 (diagm (fun _ => 4))) by (apply psd_diag; intros; lra).
  assert (C : contract e0 (OKalman demo_jac demo_res demo_meas_noise)) by (apply (demo_meas false)).
  destruct (step_inv e0 _ (reachable_inv _ (demo0_reachable AAll false)) C) as [e' [E' _]].
  destruct (errors_exist AAll demo_noise [] 1 (diagm (fun _ => 4)) (proj2 demo_noise_arg) (fun c w F => match F with end) P4) as (L & err & err1 & v & W & I & Lv & NV).
  exists e0, e', L, err1, (fun a x => err1 a x - rsum 1 (fun i => weight (nm_init demo_noise) 1 demo_row demo_meas_noise x i * innovation (n_names (nm_init demo_noise)) demo_row err1 v a i)).
  split; [apply demo_noise_arg|]. split; [reflexivity|]. split; [split; [exact C|intros; exact Logic.I]|].
  split; [split; [exact Logic.I|split; [apply (demo_columns AAll false)|intros; exact Logic.I]]|].
  split; [reflexivity|]. split; [exact E'|]. split; [exact W|]. split; [exists err; split; [exact I|exact Lv]|].
  exists v. split; [exact NV|]. intros a x. reflexivity.
Qed.
Lemma demo_errors : forall m, exists (L : law outcome) err err', chances L /\ initial L err /\
  lives L m (nm_init demo_noise) err (combine demo_calls (decisions (demo0 m false) demo_calls)) err'.
Proof.
  intros m. destruct (errors_exist m demo_noise (combine demo_calls (decisions (demo0 m false) demo_calls)) 0 (fun _ _ => 0)) as (L & err & err' & v & W & I & Lv & _).
  - apply demo_noise_arg.
  - apply demo_decent.
  - apply psd_zm.
  - exists L, err, err'. auto.
Qed.
Lemma misjudged_demo' : exists e e' (L : law outcome) err1 err2,
  misjudging outcome (demo_par AAll false) demo_noise v0 0 [] demo_row demo_jac demo_res demo_meas_noise e e' L err1 err2 (diagm (fun _ => 4)) /\
  psd (nr demo_jac) (fun k k' => diagm (fun _ => 4) k k' - ent demo_meas_noise k k').
Proof.
  destruct misjudged_demo as (e & e' & L & err1 & err2 & H). exists e, e', L, err1, err2. split; [exact H|].
  apply (psd_ext 1 (diagm (fun _ => 3))); [|apply psd_diag; intros; lra].
  intros i j _ _. unfold diagm, demo_meas_noise, midm. cbn [ent]. unfold idm. destruct (i =? j)%nat; ring.
Qed.
