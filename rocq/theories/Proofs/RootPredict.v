(** Prediction in square-root form. *)
From Coq Require Import Reals List Arith Bool Lia Lra.
From Verif Require Import Base.Res Base.Mat Base.RDec Base.RSum Base.LinAlg Base.Geom Base.AMap Base.RMat
  Model.TypeHelper Model.Types Model.MathHelperMat Model.QR Model.Ekf Model.Updater Model.Ops
  Spec.Layout Spec.History Spec.Contract Spec.Correct Spec.Named Spec.Same Spec.KF Spec.Noise Spec.RootPredict
  Proofs.MatSurgery Proofs.QRProofs Proofs.Refresh Proofs.Wf Proofs.Register Proofs.AugCov Proofs.Augment Proofs.Predict Proofs.Kalman Proofs.CovGood
  Proofs.Invariant Proofs.Named Proofs.Clones Proofs.Same Proofs.Update
  Proofs.Sizes Proofs.Scalars Proofs.Clock Proofs.CloneFacts Proofs.Demo Proofs.RegRefute Proofs.Finals Proofs.RootForm Proofs.Noise Proofs.Windows.
Import ListNotations.
Open Scope R_scope.

Lemma rate_nonneg : forall e i, wf e -> 0 <= rate_at e i.
Proof.
  intros e i W. unfold rate_at. destruct (nth_error (layout (e_state e)) i) as [a|] eqn:E; [|lra].
  pose proof (map_nth_error (own_rate (e_state e) (e_bodyQ e)) _ _ E) as M.
  rewrite (rates _ _ (pre_sorted _ (wf_pre _ W))) in M. apply nth_error_In in M. apply in_app_iff in M.
  pose proof (pre_noise _ (wf_pre _ W)) as F. unfold nonneg_noise in F. rewrite Forall_forall in F.
  destruct M as [M|M]; [apply F; exact M|]. apply repeat_spec in M. lra.
Qed.

Lemma gram_mul : forall n m A S, eqm n n (gram m (mm n S (tr A))) (mm n (mm n A (gram m S)) (tr A)).
Proof.
  intros n m A S i j Hi Hj. unfold gram. 
  transitivity (mm m (mm n A (tr S)) (mm n S (tr A)) i j).
  { apply rsum_ext. intros k Hk. f_equal. unfold tr, mm. apply rsum_ext. intros; ring. }
  rewrite <- (mm_assoc n m n n (mm n A (tr S)) S (tr A)) by lia.
  apply rsum_ext. intros k Hk. f_equal. apply (mm_assoc n n m n A (tr S) S); lia.
Qed.

Lemma predict_root_gram : forall e dt, is_root e = true -> 0 <= dt ->
  nr (e_cov e) = e_size e -> nc (e_cov e) = e_size e -> nr (e_Q e) = e_size e -> nc (e_Q e) = e_size e ->
  (18 <= e_size e)%nat ->
  exists c, predict_cov e dt = OK c /\
    eqm (e_size e) (e_size e) (gram (e_size e) (ent c))
      (madd (gram (e_size e) (bent dt (ent (e_cov e)))) (mscal dt (gram (e_size e) (ent (e_Q e))))).
Proof.
  intros e dt Hroot Hdt H1 H2 H3 H4 Hn. unfold predict_cov. rewrite Hroot.
  change g_body_state_size with 18%nat.
  destruct (transition_ok dt) as [F [-> [F1 [F2 HF]]]]. cbn [bind].
  rewrite usub_ok by lia. cbn [bind].
  repeat anystep.
  match goal with |- context [QR_r ?a ?b] => destruct (QR_r_spec a b) as [c [E [C1 [C2 [C3 C4]]]]] end;
    [cbn [nr nc mscale]; lia|cbn [nr nc mscale]; lia|].
  cbn [nr nc mscale] in *. exists c. split; [exact E|]. rewrite H2 in C4. 
  intros i j Hi Hj. rewrite C4 by lia. unfold madd. f_equal.
  - unfold gram, mm, tr. rewrite H1. apply rsum_ext. intros k Hk. cbn [ent].
    assert (G : forall j, (j < e_size e)%nat ->
      (if in_range k 0 18 && in_range j 18 (e_size e - 18)
       then mm 18 (ent F) (fun k0 j => if in_range (0 + k0) 0 18 && in_range (18 + j) 0 18
            then mm 18 (fun a b => ent (e_cov e) (0 + a)%nat (0 + b)%nat) (fun a b => ent F b a) (0 + k0 - 0)%nat (18 + j - 0)%nat
            else ent (e_cov e) (0 + k0)%nat (18 + j)%nat) (k - 0)%nat (j - 18)%nat
       else if in_range k 0 18 && in_range j 0 18
       then mm 18 (fun a b => ent (e_cov e) (0 + a)%nat (0 + b)%nat) (fun a b => ent F b a) (k - 0)%nat (j - 0)%nat
       else ent (e_cov e) k j) = bent dt (ent (e_cov e)) k j).
    { clear i j Hi Hj C4 E. intros j Hj. unfold bent.
      destruct (Nat.lt_ge_cases k 18) as [Lk|Lk]; destruct (Nat.lt_ge_cases j 18) as [Lj|Lj].
      - rewrite (proj2 (Nat.ltb_lt k 18)) by lia. rewrite (proj2 (Nat.ltb_lt j 18)) by lia. dranges.
        rewrite (FF_r (ent F) dt) by (auto; lia). rewrite !Nat.sub_0_r. reflexivity.
      - rewrite (proj2 (Nat.ltb_lt k 18)) by lia. rewrite (proj2 (Nat.ltb_ge j 18)) by lia. dranges.
        rewrite (FF_l (ent F) dt) by (auto; lia). replace (18 + (j - 18))%nat with j by lia.
        rewrite !(in_range_false j) by lia. rewrite !andb_false_r. rewrite Nat.sub_0_r. reflexivity.
      - rewrite (proj2 (Nat.ltb_ge k 18)) by lia. dranges. reflexivity.
      - rewrite (proj2 (Nat.ltb_ge k 18)) by lia. dranges. reflexivity. }
    rewrite F2. f_equal; [exact (G i Hi)|exact (G j Hj)].
  - unfold gram, mm, tr, mscal. rewrite H3. rewrite <- rsum_scal_l. apply rsum_ext. intros k Hk. cbn [ent mscale]. unfold mscal.
    transitivity (sqrt dt * sqrt dt * (ent (e_Q e) k i * ent (e_Q e) k j)); [ring|]. rewrite sqrt_sqrt by exact Hdt. reflexivity.
Qed.

Lemma bent_uncoupled : forall n dt S, (18 <= n)%nat -> upper n S ->
  (forall i j, (3 <= i < 6)%nat -> (18 <= j < n)%nat -> S i j = 0) ->
  eqm n n (bent dt S) (mm n S (tr (Fx dt))).
Proof.
  intros n dt S Hn U H i j Hi Hj. rewrite Fx_r by lia. unfold bent.
  destruct (Nat.ltb_spec i 18) as [Li|Li].
  - destruct (Nat.ltb_spec j 18) as [Lj|Lj]; [reflexivity|].
    rewrite (proj2 (Nat.ltb_ge j 3)) by lia. destruct (Nat.ltb_spec i 3) as [L|L]; [|reflexivity].
    rewrite (H (i + 3)%nat j) by lia. ring.
  - destruct (Nat.ltb_spec j 3) as [L|L]; [|ring]. rewrite (U i (j + 3)%nat) by lia. ring.
Qed.

Lemma gram_ext : forall n m A B, (forall i j, (i < m)%nat -> (j < n)%nat -> A i j = B i j) -> eqm n n (gram m A) (gram m B).
Proof. intros n m A B H i j Hi Hj. unfold gram, mm, tr. apply rsum_ext. intros k Hk. rewrite !H by lia. reflexivity. Qed.

Lemma configured_gram : forall e, wf e -> p_root (e_par e) = true -> configured e ->
  eqm (e_size e) (e_size e) (gram (e_size e) (ent (e_Q e))) (diagm (rate_at e)).
Proof.
  intros e W RT [Q1 [Q2 Q3]] i j Hi Hj. pose proof (dim_size e W) as D. rewrite RT in Q3.
  assert (L : forall k, (k < e_size e)%nat -> exists c, nth_error (layout (e_state e)) k = Some c).
  { intros k H. rewrite <- D in H. unfold dim in H. apply nth_error_Some in H. destruct (nth_error _ k); [eauto|congruence]. }
  assert (X : forall a b, (a < e_size e)%nat -> (b < e_size e)%nat -> ent (e_Q e) a b = if Nat.eqb a b then sqrt (rate_at e a) else 0).
  { intros a b Ha Hb. destruct (L a Ha) as [x Hx]. destruct (L b Hb) as [y Hy]. rewrite (Q3 a b x y Hx Hy). unfold rate_at. rewrite Hx. reflexivity. }
  unfold gram, mm, tr, diagm. rewrite (rsum_single (e_size e) i); [|exact Hi|].
  - rewrite !X by lia. rewrite Nat.eqb_refl. destruct (Nat.eqb i j); [|ring]. apply sqrt_sqrt. apply rate_nonneg. exact W.
  - intros k Hk Hne. rewrite !X by lia. apply Nat.eqb_neq in Hne. rewrite Hne. ring.
Qed.

Lemma root_predict : forall e t, reachable e -> p_root (e_par e) = true -> configured e -> e_gravity e = true -> (e_time e <= t) ->
  exists e1 e', PredictModel e t = OK e' /\ AugmentStateIfNeeded e1 = OK e' /\ (~ timed e -> e' = e1) /\
    e_size e1 = e_size e /\
    eqm (e_size e) (e_size e) (covariance e1)
      (madd (gram (e_size e) (bent (t - e_time e) (ent (e_cov e)))) (mscal (t - e_time e) (diagm (rate_at e)))) /\
    (uncoupled e -> eqm (e_size e) (e_size e) (covariance e1) (noise_last (e_size e) (t - e_time e) (covariance e) (rate_at e))).
Proof.
  intros e t Hr RT HC Hg Ht. pose proof (reachable_inv e Hr) as I. pose proof (proj1 I) as W.
  destruct (step_inv e (OPredict t) I Logic.I) as [e' [E I']]. cbn [step] in E.
  destruct (predict_full e t e' I E) as [[X _]|[_ [e1 [H1 [I1 H2]]]]]; [lra|].
  exists e1, e'. split; [exact E|]. split; [exact H2|].
  unfold model_step in H1. rewrite Hg in H1. destruct H1 as [c [Ec ->]].
  split. { intros T. rewrite not_timed_augment in H2 by exact T. injection H2 as <-. reflexivity. }
  split; [reflexivity|].
  destruct (predict_root_gram e (t - e_time e) RT ltac:(lra) (wf_nr _ W) (wf_nc _ W)) as [c' [Ec' H]].
  { apply (wf_Qr _ W). } { apply (wf_Qc _ W). } { apply size_ge. exact W. }
  rewrite Ec in Ec'. injection Ec' as <-.
  assert (G : eqm (e_size e) (e_size e) (gram (e_size e) (ent c))
      (madd (gram (e_size e) (bent (t - e_time e) (ent (e_cov e)))) (mscal (t - e_time e) (diagm (rate_at e))))).
  { intros i j Hi Hj. rewrite H by assumption. unfold madd, mscal. f_equal. f_equal. apply configured_gram; assumption. }
  unfold covariance. cbn [e_par with_time with_cov with_state e_size e_cov]. rewrite RT. cbn [stands_for].
  split; [exact G|]. intros U i j Hi Hj. rewrite G by assumption. unfold noise_last, madd. f_equal.
  destruct I as [_ I]. unfold is_root in I. rewrite RT in I. cbn [good] in I.
  transitivity (gram (e_size e) (mm (e_size e) (ent (e_cov e)) (tr (Fx (t - e_time e)))) i j).
  - apply (gram_ext (e_size e)); [|exact Hi|exact Hj]. intros a b Ha Hb. apply (bent_uncoupled (e_size e)); try assumption.
    apply size_ge. exact W.
  - rewrite gram_mul by assumption. reflexivity.
Qed.

(** *** Noise before or after the transition *)
Lemma noise_order : forall n dt P q, (6 <= n)%nat ->
  predicted n dt P q 0%nat 0%nat = noise_last n dt P q 0%nat 0%nat + dt * dt * dt * q 3%nat.
Proof.
  intros n dt P q Hn. unfold predicted, noise_last, madd at 2. rewrite !Fx_r, !Fx_l by lia.
  unfold madd, mscal, diagm. cbn [Nat.ltb Nat.leb Nat.add Nat.eqb]. ring.
Qed.

Lemma root_noise : forall e t, reachable e -> p_root (e_par e) = true -> configured e -> uncoupled e ->
  e_gravity e = true -> ~ timed e -> (e_time e < t) -> 0 < rate_at e 3 ->
  exists e', PredictModel e t = OK e' /\
    covariance e' 0%nat 0%nat < predicted (e_size e) (t - e_time e) (covariance e) (rate_at e) 0%nat 0%nat.
Proof.
  intros e t Hr RT HC U Hg NT Ht Hq. destruct (root_predict e t Hr RT HC Hg ltac:(lra)) as [e1 [e' [E [_ [T [_ [_ N]]]]]]].
  specialize (N U). specialize (T NT). subst e1. exists e'. split; [exact E|].
  pose proof (size_ge e (proj1 (reachable_inv e Hr))) as Sz. rewrite N by lia. rewrite noise_order by lia.
  assert (0 < t - e_time e) by lra.
  assert (0 < (t - e_time e) * (t - e_time e) * (t - e_time e) * rate_at e 3) by (repeat apply Rmult_lt_0_compat; assumption).
  lra.
Qed.

(** *** The wrong side of the cross term *)
Lemma upper_rows : forall n S P, (19 <= n)%nat -> upper n S -> eqm n n P (gram n S) ->
  P 0%nat 0%nat <> 0 -> P 1%nat 1%nat <> 0 -> P 2%nat 2%nat <> 0 -> P 3%nat 18%nat <> 0 ->
  P 0%nat 1%nat = 0 -> P 0%nat 2%nat = 0 -> P 0%nat 3%nat = 0 -> P 0%nat 18%nat = 0 ->
  P 1%nat 2%nat = 0 -> P 1%nat 3%nat = 0 -> P 2%nat 3%nat = 0 ->
  S 0%nat 0%nat <> 0 /\ S 0%nat 3%nat = 0 /\ S 0%nat 18%nat = 0 /\ S 1%nat 3%nat = 0 /\ S 2%nat 3%nat = 0 /\ S 3%nat 18%nat <> 0 /\
  P 3%nat 18%nat = S 3%nat 3%nat * S 3%nat 18%nat.
Proof.
  intros n S P Hn U G N0 N1 N2 N3 Z01 Z02 Z03 Z018 Z12 Z13 Z23.
  assert (X : forall i j, (i < 4)%nat -> (j < n)%nat -> P i j = rsum (i + 1) (fun k => S k i * S k j)).
  { intros i j Hi Hj. rewrite G by lia. unfold gram, mm, tr. replace n with ((i + 1) + (n - (i + 1)))%nat by lia.
    rewrite rsum_split. rewrite (rsum_0 (n - (i + 1))); [ring|]. intros k Hk. rewrite (U (i + 1 + k)%nat i) by lia. ring. }
  assert (IM : forall a b, a <> 0 -> a * b = 0 -> b = 0) by (intros a b Ha Hab; apply Rmult_integral in Hab; tauto).
  rewrite X in N0, Z01, Z02, Z03, Z018 by lia. cbn [Nat.add rsum] in N0, Z01, Z02, Z03, Z018.
  assert (A00 : S 0%nat 0%nat <> 0) by (intros Q; apply N0; rewrite Q; ring).
  assert (A01 : S 0%nat 1%nat = 0) by (apply (IM _ _ A00); lra).
  assert (A02 : S 0%nat 2%nat = 0) by (apply (IM _ _ A00); lra).
  assert (A03 : S 0%nat 3%nat = 0) by (apply (IM _ _ A00); lra).
  assert (A018 : S 0%nat 18%nat = 0) by (apply (IM _ _ A00); lra).
  rewrite X in N1, Z12, Z13 by lia. cbn [Nat.add rsum] in N1, Z12, Z13. rewrite A01 in *.
  assert (A11 : S 1%nat 1%nat <> 0) by (intros Q; apply N1; rewrite Q; ring).
  assert (A12 : S 1%nat 2%nat = 0) by (apply (IM _ _ A11); lra).
  assert (A13 : S 1%nat 3%nat = 0) by (apply (IM _ _ A11); lra).
  rewrite X in N2, Z23 by lia. cbn [Nat.add rsum] in N2, Z23. rewrite A02, A12 in *.
  assert (A22 : S 2%nat 2%nat <> 0) by (intros Q; apply N2; rewrite Q; ring).
  assert (A23 : S 2%nat 3%nat = 0) by (apply (IM _ _ A22); lra).
  assert (Y : P 3%nat 18%nat = S 3%nat 3%nat * S 3%nat 18%nat).
  { rewrite X by lia. cbn [Nat.add rsum]. rewrite A03, A13, A23. ring. }
  repeat (split; [assumption|]). split; [|exact Y]. intros Q. apply N3. rewrite Y, Q. ring.
Qed.

Lemma bent_cross : forall n dt S, (19 <= n)%nat -> upper n S ->
  S 0%nat 3%nat = 0 -> S 0%nat 18%nat = 0 -> S 1%nat 3%nat = 0 -> S 2%nat 3%nat = 0 ->
  gram n (bent dt S) 0%nat 18%nat = dt * (S 3%nat 3%nat * S 3%nat 18%nat) + dt * (S 0%nat 0%nat * S 3%nat 18%nat).
Proof.
  intros n dt S Hn U Z03 Z018 Z13 Z23. unfold gram, mm, tr.
  replace n with (4 + (n - 4))%nat by lia. rewrite rsum_split, (rsum_0 (n - 4)).
  - cbn [rsum]. unfold bent. cbn [Nat.ltb Nat.leb Nat.add]. rewrite Z03, Z018, Z13, Z23.
    rewrite (U 1%nat 0%nat), (U 2%nat 0%nat), (U 3%nat 0%nat) by lia. ring.
  - intros k Hk. assert (L : (4 <= 4 + k < n)%nat) by lia. revert L. generalize (4 + k)%nat. intros m L.
    replace (bent dt S m 0%nat) with 0; [ring|]. unfold bent. change (Nat.ltb 0 18) with true. change (Nat.ltb 0 3) with true.
    cbn [Nat.add]. rewrite (U m 0%nat), (U m 3%nat) by lia. destruct (Nat.ltb m 18); ring.
Qed.

Lemma root_cross : forall e t, reachable e -> p_root (e_par e) = true -> configured e ->
  e_gravity e = true -> ~ timed e -> (e_time e < t) -> (19 <= e_size e)%nat ->
  let P := covariance e in
  P 0%nat 0%nat <> 0 -> P 1%nat 1%nat <> 0 -> P 2%nat 2%nat <> 0 -> P 3%nat 18%nat <> 0 ->
  P 0%nat 1%nat = 0 -> P 0%nat 2%nat = 0 -> P 0%nat 3%nat = 0 -> P 0%nat 18%nat = 0 ->
  P 1%nat 2%nat = 0 -> P 1%nat 3%nat = 0 -> P 2%nat 3%nat = 0 ->
  exists e', PredictModel e t = OK e' /\
    covariance e' 0%nat 18%nat <> predicted (e_size e) (t - e_time e) (covariance e) (rate_at e) 0%nat 18%nat /\
    covariance e' 0%nat 18%nat <> noise_last (e_size e) (t - e_time e) (covariance e) (rate_at e) 0%nat 18%nat.
Proof.
  intros e t Hr RT HC Hg NT Ht Hn P N0 N1 N2 N3 Z01 Z02 Z03 Z018 Z12 Z13 Z23.
  destruct (root_predict e t Hr RT HC Hg ltac:(lra)) as [e1 [e' [E [_ [T [_ [B _]]]]]]]. specialize (T NT). subst e1.
  exists e'. split; [exact E|].
  pose proof (proj2 (reachable_inv e Hr)) as U. unfold is_root in U. rewrite RT in U. cbn [good] in U.
  assert (G : eqm (e_size e) (e_size e) P (gram (e_size e) (ent (e_cov e)))).
  { unfold P, covariance. rewrite RT. intros i j _ _. reflexivity. }
  destruct (upper_rows (e_size e) (ent (e_cov e)) P Hn U G N0 N1 N2 N3 Z01 Z02 Z03 Z018 Z12 Z13 Z23)
    as [A00 [A03 [A018 [A13 [A23 [A318 A]]]]]].
  assert (V : covariance e' 0%nat 18%nat = (t - e_time e) * P 3%nat 18%nat + (t - e_time e) * (ent (e_cov e) 0 0 * ent (e_cov e) 3 18)).
  { rewrite B by lia. unfold madd at 1. rewrite bent_cross by assumption. unfold mscal, diagm. cbn [Nat.eqb]. rewrite A. ring. }
  assert (W : (t - e_time e) * (ent (e_cov e) 0 0 * ent (e_cov e) 3 18) <> 0).
  { repeat apply Rmult_integral_contrapositive_currified; auto; lra. }
  assert (Y : predicted (e_size e) (t - e_time e) P (rate_at e) 0%nat 18%nat = (t - e_time e) * P 3%nat 18%nat /\
    noise_last (e_size e) (t - e_time e) P (rate_at e) 0%nat 18%nat = (t - e_time e) * P 3%nat 18%nat).
  { unfold predicted, noise_last, madd at 2. rewrite !Fx_r, !Fx_l by lia. unfold madd, mscal, diagm.
    cbn [Nat.ltb Nat.leb Nat.add Nat.eqb]. rewrite Z018. split; ring. }
  fold P. destruct Y as [-> ->]. rewrite V. split; lra.
Qed.

(** *** Witnesses *)
Definition plain_ops : list op := [ORefresh; OInitGravity].
Lemma plain_gen : forall e0, reachable e0 -> e_state e0 = default_state -> p_root (e_par e0) = true -> p_aug (e_par e0) = ANone ->
  e_bodyQ e0 = demo_noise -> e_time e0 = 0 -> e_size e0 = 18%nat ->
  exists e, run e0 plain_ops = OK e /\ reachable e /\ p_root (e_par e) = true /\ configured e /\ uncoupled e /\ e_gravity e = true /\
    ~ timed e /\ e_time e = 0 /\ rate_at e 3 = 1.
Proof.
  intros e0 R0 S0 RT A0 Q0 T0 Z0. pose proof (reachable_inv e0 R0) as I0.
  destruct (step_inv e0 ORefresh I0 Logic.I) as [e1 [E1 I1]].
  assert (R1 : reachable e1) by (eapply reachable_step; [exact R0| |exact E1]; exact Logic.I).
  pose proof (refreshing_configured e0 ORefresh e1 R0 Logic.I Logic.I E1) as C1.
  destruct (step_inv e1 OInitGravity I1 Logic.I) as [e2 [E2 I2]].
  assert (R2 : reachable e2) by (eapply reachable_step; [exact R1| |exact E2]; exact Logic.I).
  pose proof (configured_history e0 ORefresh [OInitGravity] e1 e2 R0 Logic.I Logic.I E1) as C2.
  cbn [step] in E1, E2. destruct (Refresh_pre e0 (wf_pre _ (proj1 I0))) as [e1' [E1' [_ [_ [B1 [B2 [B3 [B4 [B5 [B6 _]]]]]]]]]].
  rewrite E1 in E1'. injection E1' as <-. injection E2 as <-.
  exists (InitializeGravity e1). split. { cbn [run plain_ops step]. rewrite E1. reflexivity. }
  split; [exact R2|]. split; [cbn; rewrite B4; exact RT|]. split.
  { apply C2; [cbn; auto|repeat constructor|]. cbn [run step]. reflexivity. }
  split. { intros i j _ Hj. change (e_size (InitializeGravity e1)) with (e_size e1) in Hj. lia. }
  split; [reflexivity|]. split. { unfold timed. cbn. rewrite B4, A0. intros [|]; discriminate. }
  split; [cbn; rewrite B5; exact T0|].
  unfold rate_at. change (e_state (InitializeGravity e1)) with (e_state e1). change (e_bodyQ (InitializeGravity e1)) with (e_bodyQ e1).
  rewrite B1, B6, S0, Q0. reflexivity.
Qed.
Lemma noise_refuted : exists e t e', reachable e /\ p_root (e_par e) = true /\ configured e /\ uncoupled e /\ ~ timed e /\ e_gravity e = true /\
  e_time e <= t /\ PredictModel e t = OK e' /\
  covariance e' 0%nat 0%nat <> predicted (e_size e) (t - e_time e) (covariance e) (rate_at e) 0%nat 0%nat.
Proof.
  destruct (plain_gen (demo0 ANone true) (demo0_reachable ANone true) eq_refl eq_refl eq_refl eq_refl eq_refl eq_refl)
    as [e [_ [H1 [H2 [H3 [H4 [H5 [H6 [H7 H8]]]]]]]]].
  destruct (root_noise e 1 H1 H2 H3 H4 H5 H6 ltac:(lra) ltac:(lra)) as [e' [E L]].
  exists e, 1, e'. repeat (split; [first [assumption|lra]|]). lra.
Qed.

Definition gps_cov : mat R := scaled (1/10) 3.
Definition pair_jac : mat R := mkmat 1 21 (fun _ j => if Nat.eqb j 3 || Nat.eqb j 18 then 1 else 0).
Definition pair_res : mat R := mkmat 1 1 (fun _ _ => 1/2).
Definition pair_noise : mat R := midm 1 1.

Lemma coupled_gen : forall e0, reachable e0 -> e_state e0 = default_state -> p_root (e_par e0) = true -> p_aug (e_par e0) = ANone ->
  e_time e0 = 0 -> e_size e0 = 18%nat -> (forall i j, (i < 18)%nat -> (j < 18)%nat -> ent (e_cov e0) i j = if Nat.eqb i j then 1/10 else 0) ->
  exists e, reachable e /\ p_root (e_par e) = true /\ configured e /\ e_gravity e = true /\
    ~ timed e /\ e_time e = 0 /\ e_size e = 21%nat /\
    (exists k, k <> 0 /\ forall i j, (i < 21)%nat -> (j < 21)%nat -> covariance e i j =
      (if Nat.eqb i j then 1/100 else 0) - (if (Nat.eqb i 3 || Nat.eqb i 18) && (Nat.eqb j 3 || Nat.eqb j 18) then k else 0)).
Proof.
  intros e0 R0 S0 RT A0 T0 Z0 V0. pose proof (reachable_inv e0 R0) as I0.
  assert (C0 : contract e0 (ORegGps 3 demo_gps gps_cov)).
  { cbn [contract]. intros _. split; [reflexivity|]. split; [apply scaled_arg; lra|]. pose proof e9_pos. cbn. auto. }
  destruct (step_inv e0 _ I0 C0) as [e1 [E1 I1]].
  assert (R1 : reachable e1) by (eapply reachable_step; [exact R0|exact C0|exact E1]).
  assert (F0 : refreshing e0 (ORegGps 3 demo_gps gps_cov)) by (cbn; rewrite S0; reflexivity).
  pose proof E1 as E1s. cbn [step] in E1.
  destruct (RegisterGPS_ok e0 3 demo_gps gps_cov (proj1 I0) F0) as [e1' [E1' [_ [B1 [B2 [_ [B4 _]]]]]]].
  { pose proof e9_pos. repeat split; cbn; auto. }
  rewrite E1 in E1'. injection E1' as <-. destruct B4 as [P1 [T1 _]].
  assert (Sc : start_cam (e_state e0) = 18%nat) by (rewrite S0; reflexivity). rewrite Sc in B2.
  assert (D1 : dim (e_state e1) = 21%nat) by (rewrite B1, S0; reflexivity).
  assert (Z1 : e_size e1 = 21%nat) by (rewrite <- D1; symmetry; apply dim_size; apply I1).
  assert (W0 := wf_nr _ (proj1 I0)). assert (W0' := wf_nc _ (proj1 I0)).
  assert (V1 : forall i j, (i < 21)%nat -> (j < 21)%nat -> ent (e_cov e1) i j = if Nat.eqb i j then 1/10 else 0).
  { destruct B2 as [N1 [N2 N3]]. intros i j Hi Hj. rewrite N3 by (rewrite ?(wf_nr _ (proj1 I1)), ?(wf_nc _ (proj1 I1)), Z1; lia).
    unfold insert_entry, unshift, sub_block, gps_cov, scaled. cbn [nr nc ent mscale midm gps_len demo_gps gps_SetIsExtrinsic g_ext].
    unfold mscal, idm. change g_gps_extrinsic_state_size with 3%nat.
    destruct (Nat.ltb_spec i 18), (Nat.ltb_spec j 18).
    - apply V0; lia.
    - destruct (Nat.eqb_spec i j); [lia|]. destruct (Nat.ltb_spec j (18 + 3)); [reflexivity|lia].
    - destruct (Nat.eqb_spec i j); [lia|]. destruct (Nat.ltb_spec i (18 + 3)); [reflexivity|lia].
    - destruct (Nat.ltb_spec i (18 + 3)); [|lia]. destruct (Nat.ltb_spec j (18 + 3)); [|lia].
      destruct (Nat.eqb_spec i j) as [<-|X]; [rewrite Nat.eqb_refl; lra|].
      destruct (Nat.eqb_spec (0 + (i - 18)) (0 + (j - 18))); [lia|lra]. }
  assert (Q1 : eqm 21 21 (covariance e1) (mscal (1/100) idm)).
  { intros i j Hi Hj. unfold covariance. rewrite P1, RT, Z1. cbn [stands_for]. unfold gram, mm, tr, mscal, idm.
    rewrite (rsum_single 21 i); [|exact Hi|].
    - rewrite !V1 by assumption. rewrite Nat.eqb_refl. destruct (Nat.eqb i j); lra.
    - intros k Hk Hne. rewrite !V1 by assumption. apply Nat.eqb_neq in Hne. rewrite Hne. ring. }
  set (e2 := InitializeGravity e1).
  assert (R2 : reachable e2) by (apply (reachable_step e1 OInitGravity e2 R1 Logic.I eq_refl)).
  assert (RT2 : p_root (e_par e2) = true) by (unfold e2; cbn; rewrite P1; exact RT).
  assert (C2 : contract e2 (OKalman pair_jac pair_res pair_noise)).
  { cbn [contract]. unfold meas_arg. rewrite RT2. split; [symmetry; exact D1|]. do 4 (split; [reflexivity|]).
    split; [intros i j _ _; cbn; unfold idm; destruct (Nat.eqb i j); lra|].
    eapply spd_ext; [|apply spd_idm]. symmetry. apply (gram_sqrt_diag 1 idm).
    - intros i j Hi Hj H. lia.
    - intros i Hi. unfold idm. rewrite Nat.eqb_refl. lra. }
  destruct (kalman_full e2 pair_jac pair_res pair_noise (reachable_inv _ R2) C2) as [e3 [K [E3 [_ [_ [SP [_ [G [J [_ [c' HX]]]]]]]]]]].
  assert (R3 : reachable e3) by (apply (reachable_step e2 (OKalman pair_jac pair_res pair_noise) e3 R2 C2 E3)).
  pose proof (configured_history e0 _ [OInitGravity; OKalman pair_jac pair_res pair_noise] e1 e3 R0 C0 F0 E1s) as C3.
  exists e3. split; [exact R3|].
  assert (Pe : e_par e3 = e_par e0) by (rewrite HX; cbn; exact P1).
  split; [rewrite Pe; exact RT|]. split.
  { apply C3; [|repeat constructor|].
    - cbn [respects]. split; [exact Logic.I|]. intros x Hx. cbn [step] in Hx. injection Hx as <-. split; [exact C2|]. auto.
    - cbn [run step bind]. fold e2. rewrite E3. reflexivity. }
  split; [rewrite HX; reflexivity|]. split. { unfold timed. rewrite Pe, A0. intros [|]; discriminate. }
  split; [rewrite HX; cbn; rewrite T1; exact T0|]. split; [rewrite HX; exact Z1|].
  change (dim (e_state e2)) with (dim (e_state e1)) in *. rewrite D1 in *. change (nr pair_jac) with 1%nat in *.
  rewrite RT2 in *. cbn [noise_used] in *.
  change (covariance e2) with (covariance e1) in *. set (P := covariance e1) in *.
  set (N := gram 1 (fun i j => sqrt (ent pair_noise i j))) in *.
  assert (N0 : N 0%nat 0%nat = 1).
  { unfold N, gram, mm, tr. cbn. unfold idm. cbn. rewrite sqrt_1. ring. }
  assert (PH : forall i, (i < 21)%nat -> mm 21 P (tr (ent pair_jac)) i 0%nat = if Nat.eqb i 3 || Nat.eqb i 18 then 1/100 else 0).
  { intros i Hi. unfold mm, tr. rewrite (rsum_single 21 i); [|exact Hi|].
    - rewrite Q1 by assumption. unfold mscal, idm. rewrite Nat.eqb_refl. cbn [ent pair_jac]. destruct (Nat.eqb i 3 || Nat.eqb i 18); lra.
    - intros k Hk Hne. rewrite Q1 by assumption. unfold mscal, idm. apply not_eq_sym, Nat.eqb_neq in Hne. rewrite Hne. ring. }
  assert (HPH : innov 21 P (ent pair_jac) N 0%nat 0%nat = 102/100).
  { unfold innov, madd. rewrite N0.
    rewrite (mm_assoc 1 21 21 1 (ent pair_jac) P (tr (ent pair_jac)) 0%nat 0%nat) by lia.
    unfold mm at 1. rewrite (rsum_ext 21 _ (fun k => if Nat.eqb k 3 || Nat.eqb k 18 then 1/100 else 0)).
    - cbn. lra.
    - intros k Hk. rewrite PH by exact Hk. cbn [ent pair_jac]. destruct (Nat.eqb k 3 || Nat.eqb k 18); ring. }
  assert (KV : forall i, (i < 21)%nat -> ent K i 0%nat * (102/100) = if Nat.eqb i 3 || Nat.eqb i 18 then 1/100 else 0).
  { intros i Hi. rewrite <- PH, <- HPH by exact Hi. rewrite <- G by lia. unfold mm. cbn [rsum]. ring. }
  exists (1/100 * (1/102)). split; [lra|]. intros i j Hi Hj. rewrite J by assumption.
  rewrite (joseph_gain 21 1 P _ _ _ (proj1 SP) G i j) by assumption. unfold msub. rewrite Q1 by assumption.
  f_equal; [unfold mscal, idm; destruct (Nat.eqb i j); lra|].
  unfold mm at 1. rewrite (rsum_single 21 j); [|exact Hj|].
  - rewrite Q1 by assumption. unfold mscal, idm. rewrite Nat.eqb_refl. unfold mm. cbn [rsum ent pair_jac]. pose proof (KV i Hi) as KI.
    destruct (Nat.eqb i 3 || Nat.eqb i 18); destruct (Nat.eqb j 3 || Nat.eqb j 18); cbn [andb]; lra.
  - intros k Hk Hne. rewrite Q1 by assumption. unfold mscal, idm. apply Nat.eqb_neq in Hne. rewrite Hne. ring.
Qed.

Lemma cross_refuted : exists e t e', reachable e /\ p_root (e_par e) = true /\ configured e /\ ~ timed e /\ e_gravity e = true /\
  e_time e <= t /\ PredictModel e t = OK e' /\
  covariance e' 0%nat 18%nat <> predicted (e_size e) (t - e_time e) (covariance e) (rate_at e) 0%nat 18%nat /\
  covariance e' 0%nat 18%nat <> noise_last (e_size e) (t - e_time e) (covariance e) (rate_at e) 0%nat 18%nat.
Proof.
  destruct (coupled_gen (demo0 ANone true) (demo0_reachable ANone true) eq_refl eq_refl eq_refl eq_refl eq_refl)
    as [e [H1 [H2 [H3 [H4 [H5 [H6 [H7 [k [Hk HV]]]]]]]]]].
  { intros i j Hi Hj. cbn [demo0 EKF_init e_cov demo_par p_root mmap ent mscale midm]. unfold mscal, idm.
    destruct (Nat.eqb i j).
    - replace (1 / 100 * 1) with ((1/10) * (1/10)) by lra. apply sqrt_square. lra.
    - rewrite Rmult_0_r. apply sqrt_0. }
  assert (V : forall i j, (i < 21)%nat -> (j < 21)%nat -> covariance e i j =
      (if Nat.eqb i j then 1/100 else 0) - (if (Nat.eqb i 3 || Nat.eqb i 18) && (Nat.eqb j 3 || Nat.eqb j 18) then k else 0)) by exact HV.
  destruct (root_cross e 1 H1 H2 H3 H4 H5 ltac:(lra) ltac:(lia)) as [e' [E [X Y]]];
    try (rewrite V by lia; cbn; lra).
  exists e, 1, e'. repeat (split; [first [assumption|lra]|]). assumption.
Qed.
