(** A concrete history for the refinement theorem, and what the square-root
    form does instead. *)
From Coq Require Import Reals List Arith Bool Lia Lra.
From Verif Require Import Base.Res Base.Mat Base.RDec Base.LinAlg Base.Geom Base.AMap Base.RMat
  Model.TypeHelper Model.Types Model.MathHelperMat Model.Ekf Model.Updater Model.Ops
  Spec.Layout Spec.History Spec.Contract Spec.Named Spec.ByName
  Proofs.Invariant Proofs.Named Proofs.Demo Proofs.DemoFilter Proofs.Sizes Proofs.RegRefute Proofs.ByName Proofs.ByNameRun.
Import ListNotations.
Open Scope nat_scope.

Definition demo_row (i : nat) (x : name) : R := if name_dec x (NBody 0) then 1%R else 0%R.
Definition demo_calls : list call :=
  Measure demo_row demo_jac demo_res demo_meas_noise :: map Do (tl demo_ops).
Lemma demo_calls_ops : map op_of demo_calls = demo_ops.
Proof. reflexivity. Qed.

Lemma demo_columns : forall a root, columns (demo0 a root) (nm_init demo_noise) demo_jac demo_row.
Proof.
  intros a root i x j _ Hx Hj. cbn [nm_init n_names] in Hx. apply in_map_iff in Hx. destruct Hx as [k [<- Hk]].
  cbn in Hj. injection Hj as <-. unfold demo_row. cbn [demo_jac ent].
  destruct (name_dec (NBody k) (NBody 0)) as [X|X]; destruct (Nat.eqb_spec k 0) as [Y|Y]; try reflexivity; exfalso; congruence.
Qed.

Lemma demo_valid : forall a, valid a (demo0 a false) (nm_init demo_noise) demo_calls.
Proof.
  intros a. unfold demo_calls, demo_ops. cbn [tl map valid op_of].
  split; [exact I|]. split; [apply demo_columns|]. intros e1 _.
  split; [right; intros k []|]. split; [exact I|]. intros e2 _.
  split; [right; intros k []|]. split; [exact I|]. intros e3 _.
  split; [right; intros k []|]. split; [exact I|]. intros e4 _.
  split; [split; [right; intros k []|right; reflexivity]|]. split; [exact I|]. intros e5 _.
  split; [left; left; reflexivity|]. split; [exact I|]. intros e6 _.
  repeat (split; [exact I|]; split; [exact I|]; intros ? _). exact I.
Qed.

Lemma demo_history : exists e, run (demo0 AAll false) (map op_of demo_calls) = OK e /\
  agree e (nm_run AAll (nm_init demo_noise) (combine demo_calls (decisions (demo0 AAll false) demo_calls))).
Proof.
  destruct (run_dims (demo_par AAll false) demo_noise v0 0 demo_ops demo_noise_arg (demo_respects AAll false)) as [e [E _]].
  exists e. split; [exact E|].
  apply (history_agrees (demo_par AAll false) demo_noise v0 0 demo_calls e demo_noise_arg eq_refl (demo_respects AAll false) (demo_valid AAll) E).
Qed.

(** In square-root form one registration is enough to part ways. *)
Lemma root_parts : exists p q pe an l e, noise_arg q /\ p_root p = true /\
  respects (EKF_init p q pe an) (map op_of l) /\ valid (p_aug p) (EKF_init p q pe an) (nm_init q) l /\
  run (EKF_init p q pe an) (map op_of l) = OK e /\
  ~ agree e (nm_run (p_aug p) (nm_init q) (combine l (decisions (EKF_init p q pe an) l))).
Proof.
  set (e0 := demo0 ANone true). set (c := scaled (1/10) 12).
  assert (C0 : contract e0 (ORegImu 2 demo_imu c)) by (apply demo_imu_contract; intros; apply scaled_arg; lra).
  pose proof (demo0_reachable ANone true) as R0.
  destruct (step_inv e0 _ (reachable_inv _ R0) C0) as [e1 [E1 I1]].
  pose proof (register_imu_named e0 2 demo_imu c e1 (reachable_inv _ R0) C0) as H.
  destruct H as [_ _ H _]; [intros k []|exact E1|].
  specialize (H 0 0 (LImuExt 2 0) (LImuExt 2 0) eq_refl eq_refl). destruct H as [i [j [Hi [Hj HC]]]].
  exists (demo_par ANone true), demo_noise, v0, 0%R, [Do (ORegImu 2 demo_imu c)], e1.
  split; [apply demo_noise_arg|]. split; [reflexivity|]. split; [split; [exact C0|intros; exact I]|].
  split; [split; [right; intros k []|split; [exact I|intros; exact I]]|].
  split; [cbn [map op_of run]; fold (demo0 ANone true); fold e0; rewrite E1; reflexivity|].
  intros A. set (a := nm_run _ _ _) in A.
  assert (HA : In (NImuExt 2 0) (n_names a) /\ n_cov a (NImuExt 2 0) (NImuExt 2 0) = (1/10)%R /\ n_first a = fun _ => 0).
  { unfold a. cbn [decisions op_of]. fold (demo0 ANone true). fold e0. rewrite E1.
    cbn [combine nm_run fold_left fst snd nm_step]. cbn.
    split; [|split; [unfold mscal, idm; cbn; lra|reflexivity]]. left. reflexivity. }
  destruct HA as [HA1 [HA2 HA3]].
  pose proof (ag_cov _ _ A (NImuExt 2 0) (NImuExt 2 0) i j HA1 HA1
    (told_nm e1 (n_first a) (LImuExt 2 0) i I1 Hi) (told_nm e1 (n_first a) (LImuExt 2 0) j I1 Hj)) as X.
  rewrite HA2 in X. rewrite X in HC.
  assert (Y : stands_for (p_root (e_par e0)) (length (imu_labels (2, demo_imu))) c 0 0 = (1/100)%R).
  { cbn. unfold gram, mm, tr. cbn. unfold mscal, idm. cbn. lra. }
  rewrite Y in HC. lra.
Qed.

Lemma no_decisions : forall mode a l ws, mode = ANone \/ mode = APrimary \/ mode = AAll -> length ws = length l ->
  nm_run mode a (combine l ws) = nm_run mode a (combine l (map (fun _ => (0, false)) l)).
Proof.
  intros mode a l ws Hm. revert a ws. induction l as [|c l IH]; intros a ws HL; [reflexivity|].
  destruct ws as [|w ws]; [discriminate|]. cbn [map combine nm_run fold_left fst snd].
  assert (E : nm_step mode w a c = nm_step mode (0, false) a c).
  { destruct c as [o|]; [|reflexivity]. destruct o; try reflexivity; cbn [nm_step]; unfold nm_settle;
      destruct Hm as [->|[->| ->]]; reflexivity. }
  rewrite E. apply IH. cbn in HL. congruence.
Qed.

Lemma predict_shape : forall w a t, exists c tm, nm_step AAll w a (Do (OPredict t)) =
  nm_clock (nm_windows a (n_names a) c (n_first a) (n_next a)) tm (n_started a).
Proof.
  intros w a t. cbn [nm_step nm_settle]. destruct (Rltb t (n_time a)) eqn:E.
  - exists (n_cov a), (n_time a). destruct a; reflexivity.
  - unfold nm_predict. rewrite E. destruct (n_gravity a); [eexists _, _; reflexivity|].
    exists (n_cov a), t. destruct a; reflexivity.
Qed.
Lemma demo_window :
  let a := nm_run AAll (nm_init demo_noise) (combine demo_calls (map (fun _ => (0, false)) demo_calls)) in
  n_first a 2 = 1 /\ n_next a 2 = 3 /\ length (n_names a) = 57.
Proof.
  cbv zeta. unfold demo_calls, demo_ops. cbn [tl map combine nm_run fold_left fst snd].
  repeat match goal with |- context [nm_step AAll ?w ?a (Do (OPredict ?t))] =>
    let c := fresh "c" in let tm := fresh "tm" in destruct (predict_shape w a t) as [c [tm ->]] end.
  vm_compute. repeat split.
Qed.
