(** What is left to know after blind measurements only: variances, and a
    history of this kind. *)
From Coq Require Import Reals List Arith Bool Lia Lra.
From Verif Require Import Base.Res Base.Mat Base.RDec Base.RSum Base.LinAlg Base.Geom Base.AMap Base.RMat
  Model.TypeHelper Model.Types Model.MathHelperMat Model.Ekf Model.Updater Model.Ops
  Spec.Layout Spec.History Spec.Contract Spec.Named Spec.ByName Spec.Unsure
  Proofs.Invariant Proofs.Named Proofs.Demo Proofs.Sizes Proofs.ByName Proofs.ByNameRun Proofs.ByNameDemo
  Proofs.Unsure Proofs.UnsureRun.
Import ListNotations.
Open Scope R_scope.

Lemma qf_unit : forall n P i, (i < n)%nat -> qf n P (fun j => if Nat.eqb j i then 1 else 0) = P i i.
Proof.
  intros n P i Hi. rewrite qf_expand. rewrite (rsum_single n i); [|exact Hi|].
  - rewrite (rsum_single n i); [|exact Hi|].
    + rewrite Nat.eqb_refl. ring.
    + intros j _ N. destruct (Nat.eqb_spec j i); [contradiction|ring].
  - intros j _ N. apply rsum_0. intros k _. destruct (Nat.eqb_spec j i); [contradiction|ring].
Qed.
Lemma dot_unit : forall n (w : nat -> R) i, (i < n)%nat -> rsum n (fun j => (if Nat.eqb j i then 1 else 0) * w j) = w i.
Proof.
  intros n w i Hi. rewrite (rsum_single n i); [rewrite Nat.eqb_refl; ring|exact Hi|].
  intros j _ N. destruct (Nat.eqb_spec j i); [contradiction|ring].
Qed.

(** Every coordinate that moves by one along some axis keeps its variance. *)
Lemma variance_left : forall e a i k, twin e a -> more a -> (k < 3)%nat -> (i < e_size e)%nat -> shift e a k i = 1 -> 1 / 100 <= covariance e i i.
Proof.
  intros e a i k T M Hk Hi W. pose proof (more_unsure e a T M (fun j => if Nat.eqb j i then 1 else 0) (shift e a 0) (shift e a 1) (shift e a 2)
    (shift_moved e a 0 T ltac:(lia)) (shift_moved e a 1 T ltac:(lia)) (shift_moved e a 2 T ltac:(lia))) as U.
  cbv zeta in U. rewrite qf_unit in U by exact Hi. rewrite !dot_unit in U by exact Hi.
  pose proof (Rle_0_sqr (shift e a 0 i)) as A0. pose proof (Rle_0_sqr (shift e a 1 i)) as A1. pose proof (Rle_0_sqr (shift e a 2 i)) as A2.
  unfold Rsqr in *. destruct k as [|[|[|k]]]; [| | |lia]; rewrite W in *; lra.
Qed.
Lemma variances_twin : forall e a, twin e a -> more a ->
  (forall k, (k < 3)%nat -> 1 / 100 <= covariance e k k) /\
  (forall cam c k, In c (aug_at e cam) -> (k < 3)%nat -> 1 / 100 <= covariance e (a_index c + k)%nat (a_index c + k)%nat).
Proof.
  intros e a T M. split.
  - intros k Hk. apply (variance_left e a k k T M Hk).
    + apply (at_bound e a (LBody k) k T). apply at_body. lia.
    + rewrite (proj1 (shift_moved e a k T Hk) k Hk). unfold axis. rewrite Nat.eqb_refl. reflexivity.
  - intros cam c k Hc Hk. apply (variance_left e a _ k T M Hk).
    + destruct (In_nth_error _ _ Hc) as [p Hp]. apply (at_bound e a (LAug cam p k) _ T). apply (clone_at e a cam p c k T Hp). lia.
    + rewrite (proj1 (proj2 (shift_moved e a k T Hk)) cam c k Hc Hk). unfold axis. rewrite Nat.eqb_refl. reflexivity.
Qed.
Theorem positions_unsure : forall p q pe an l e, noise_arg q -> p_root p = false ->
  respects (EKF_init p q pe an) (map op_of l) -> valid (p_aug p) (EKF_init p q pe an) (nm_init q) l -> all_blind (EKF_init p q pe an) l ->
  run (EKF_init p q pe an) (map op_of l) = OK e ->
  (forall k, (k < 3)%nat -> 1 / 100 <= covariance e k k) /\
  (forall cam c k, In c (aug_at e cam) -> (k < 3)%nat -> 1 / 100 <= covariance e (a_index c + k)%nat (a_index c + k)%nat).
Proof.
  intros p q pe an l e Hq RT RS V B E.
  destruct (run_unsure l (EKF_init p q pe an) (nm_init q) e) as [a [T M]]; try assumption.
  - exists p, q, pe, an, []. split; [exact Hq|]. split; [exact Logic.I|reflexivity].
  - apply init_twin; assumption.
  - apply init_more.
  - apply (variances_twin e a T M).
Qed.

(** *** A history: the velocity is measured, then as in the other examples *)
Definition vel_jac : mat R := mkmat 1 18 (fun _ j => if Nat.eqb j 3 then 1 else 0).
Definition vel_row (i : nat) (x : name) : R := if name_dec x (NBody 3) then 1 else 0.
Definition vel_calls : list call := Measure vel_row vel_jac demo_res demo_meas_noise :: map Do (tl demo_ops).
Lemma vel_meas : meas_arg false 18 vel_jac demo_res demo_meas_noise.
Proof. exact (demo_meas false). Qed.
Lemma vel_columns : forall a root, columns (demo0 a root) (nm_init demo_noise) vel_jac vel_row.
Proof.
  intros a root i x j _ Hx Hj. cbn [nm_init n_names] in Hx. apply in_map_iff in Hx. destruct Hx as [k [<- Hk]].
  cbn in Hj. injection Hj as <-. unfold vel_row. cbn [vel_jac ent].
  destruct (name_dec (NBody k) (NBody 3)) as [X|X]; destruct (Nat.eqb_spec k 3) as [Y|Y]; try reflexivity; exfalso; congruence.
Qed.

Lemma vel_valid : forall a, valid a (demo0 a false) (nm_init demo_noise) vel_calls.
Proof.
  intros a. unfold vel_calls, demo_ops. cbn [tl map valid op_of].
  split; [exact I|]. split; [apply vel_columns|]. intros e1 _.
  split; [right; intros k []|]. split; [exact I|]. intros e2 _.
  split; [right; intros k []|]. split; [exact I|]. intros e3 _.
  split; [right; intros k []|]. split; [exact I|]. intros e4 _.
  split; [split; [right; intros k []|right; reflexivity]|]. split; [exact I|]. intros e5 _.
  split; [left; left; reflexivity|]. split; [exact I|]. intros e6 _.
  repeat (split; [exact I|]; split; [exact I|]; intros ? _). exact I.
Qed.
Lemma vel_blind : forall a root, blind (demo0 a root) vel_jac.
Proof.
  intros a root v w r W _. apply rsum_0. intros i Hi. cbn [vel_jac ent]. destruct (Nat.eqb_spec i 3) as [->|]; [|ring].
  rewrite (proj2 (proj2 W) 3%nat); [ring|exact Hi|lia|]. intros cam c k Hc. destruct Hc.
Qed.
Lemma vel_all_blind : forall a, all_blind (demo0 a false) vel_calls.
Proof.
  intros a. unfold vel_calls, demo_ops. cbn [tl map all_blind]. split; [apply vel_blind|]. intros e1 _.
  repeat (split; [exact I|]; intros ? _). exact I.
Qed.
Lemma vel_respects : forall a, respects (demo0 a false) (map op_of vel_calls).
Proof.
  intros a. unfold vel_calls, demo_ops. cbn [tl map op_of respects].
  split; [apply vel_meas|]. intros e1 _.
  split.
  { cbn [contract]. intros _. split; [reflexivity|]. split; [apply demo_cov_arg|].
    cbn. pose proof e9_pos. auto. }
  intros e2 _. split.
  { cbn [contract]. intros _. split; [reflexivity|]. split; [apply demo_cov_arg|]. cbn. pose proof e9_pos. auto. }
  intros e3 _. split.
  { cbn [contract]. intros _. split; [reflexivity|]. split; [apply demo_cov_arg|]. cbn. pose proof e9_pos. split; auto with real. }
  intros e4 _. split.
  { cbn [contract]. intros _. split; [reflexivity|]. split; [apply demo_cov_arg|]. cbn. pose proof e9_pos. auto. }
  intros e5 _. split.
  { cbn [contract]. intros _. split; [reflexivity|]. split; [apply demo_cov_arg|].
    cbn. pose proof e9_pos. auto. }
  intros e6 _. do 7 (split; [exact I|]; intros ? _).
  split; [cbn; lia|]. intros e7 _. do 2 (split; [exact I|]; intros ? _).
  split; [split; [reflexivity|intros; cbn; lra]|]. intros ? _. do 2 (split; [exact I|]; intros ? _).
  exact I.
Qed.
Lemma vel_history : exists e, run (demo0 AAll false) (map op_of vel_calls) = OK e /\ unsure e (1 / 100).
Proof.
  destruct (run_dims (demo_par AAll false) demo_noise v0 0 (map op_of vel_calls) demo_noise_arg (vel_respects AAll)) as [e [E _]].
  exists e. split; [exact E|].
  exact (never_surer (demo_par AAll false) demo_noise v0 0 vel_calls e demo_noise_arg eq_refl (vel_respects AAll) (vel_valid AAll) (vel_all_blind AAll) E).
Qed.
