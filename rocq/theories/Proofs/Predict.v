(** The covariance prediction. *)
From Coq Require Import Reals List Arith Bool Lia Lra.
From Verif Require Import Base.Res Base.Mat Base.RDec Base.RSum Base.LinAlg Base.Geom Base.AMap Base.RMat
  Model.TypeHelper Model.Types Model.MathHelperMat Model.QR Model.Ekf Spec.Layout Spec.History Spec.KF
  Proofs.MatSurgery Proofs.QRProofs Proofs.Refresh Proofs.Wf Proofs.Register Proofs.Augment.
Import ListNotations.
Open Scope R_scope.

Lemma Fx_l : forall m dt B i j, (i < m)%nat -> (6 <= m)%nat ->
  mm m (Fx dt) B i j = B i j + (if Nat.ltb i 3 then dt * B (i + 3)%nat j else 0).
Proof.
  intros m dt B i j Hi Hm. unfold mm, Fx.
  rewrite (rsum_ext m _ (fun k => (if Nat.eqb i k then 1 else 0) * B k j +
    (if Nat.ltb i 3 then dt else 0) * ((if Nat.eqb (i + 3) k then 1 else 0) * B k j))).
  - rewrite rsum_plus, rsum_scal_l. rewrite (rsum_delta_l m i (fun k => B k j)) by auto.
    destruct (Nat.ltb i 3) eqn:E.
    + apply Nat.ltb_lt in E. rewrite (rsum_delta_l m (i + 3) (fun k => B k j)) by lia. ring.
    + ring.
  - intros k Hk. rewrite (Nat.eqb_sym k (i + 3)).
    destruct (Nat.eqb i k) eqn:E1; destruct (Nat.ltb i 3) eqn:E2; destruct (Nat.eqb (i + 3) k) eqn:E3;
      cbn [andb]; try ring; apply Nat.eqb_eq in E1; apply Nat.eqb_eq in E3; lia.
Qed.

Lemma Fx_r : forall m dt B i j, (j < m)%nat -> (6 <= m)%nat ->
  mm m B (tr (Fx dt)) i j = B i j + (if Nat.ltb j 3 then dt * B i (j + 3)%nat else 0).
Proof.
  intros m dt B i j Hj Hm.
  assert (H := Fx_l m dt (tr B) j i Hj Hm). unfold tr in *. rewrite <- H. unfold mm.
  apply rsum_ext. intros; ring.
Qed.

Lemma transition_ok : forall dt, exists F, GetStateTransition dt = OK F /\ nr F = 18%nat /\ nc F = 18%nat /\
  eqm 18 18 (ent F) (Fx dt).
Proof.
  intros dt. unfold GetStateTransition. change g_body_state_size with 18%nat.
  rewrite set_block_ok by (cbn; lia). eexists. split; [reflexivity|]. split; [reflexivity|]. split; [reflexivity|].
  intros i j Hi Hj. cbn [ent midm mscale]. unfold Fx, mscal, idm.
  destruct (in_range i 0 3) eqn:E1; destruct (in_range j 3 3) eqn:E2; cbn [andb].
  - apply in_range_spec in E1. apply in_range_spec in E2.
    rewrite (proj2 (Nat.ltb_lt i 3)) by lia.
    destruct (Nat.eqb i j) eqn:E3; [apply Nat.eqb_eq in E3; lia|]. rewrite Nat.sub_0_r. cbn [andb].
    destruct (Nat.eqb i (j - 3)) eqn:E4; destruct (Nat.eqb j (i + 3)) eqn:E5; try ring;
      rewrite ?Nat.eqb_eq, ?Nat.eqb_neq in *; lia.
  - destruct (Nat.eqb i j); [reflexivity|].
    destruct (Nat.ltb i 3) eqn:E3; destruct (Nat.eqb j (i + 3)) eqn:E4; cbn [andb]; try reflexivity.
    exfalso. apply Nat.ltb_lt in E3. apply Nat.eqb_eq in E4. rewrite in_range_true in E2 by lia. discriminate.
  - destruct (Nat.eqb i j); [reflexivity|].
    destruct (Nat.ltb i 3) eqn:E3; destruct (Nat.eqb j (i + 3)) eqn:E4; cbn [andb]; try reflexivity.
    exfalso. apply Nat.ltb_lt in E3. rewrite in_range_true in E1 by lia. discriminate.
  - destruct (Nat.eqb i j); [reflexivity|].
    destruct (Nat.ltb i 3) eqn:E3; destruct (Nat.eqb j (i + 3)) eqn:E4; cbn [andb]; try reflexivity.
    exfalso. apply Nat.ltb_lt in E3. rewrite in_range_true in E1 by lia. discriminate.
Qed.

Lemma FF_l : forall F dt B i j, eqm 18 18 F (Fx dt) -> (i < 18)%nat ->
  mm 18 F B i j = B i j + (if Nat.ltb i 3 then dt * B (i + 3)%nat j else 0).
Proof.
  intros F dt B i j H Hi. rewrite <- (Fx_l 18) by (auto; lia). unfold mm. apply rsum_ext.
  intros k Hk. rewrite H by auto. reflexivity.
Qed.
Lemma FF_r : forall F dt B i j, eqm 18 18 F (Fx dt) -> (j < 18)%nat ->
  mm 18 B (fun a b => F b a) i j = B i j + (if Nat.ltb j 3 then dt * B i (j + 3)%nat else 0).
Proof.
  intros F dt B i j H Hi. rewrite <- (Fx_r 18) by (auto; lia). unfold mm, tr. apply rsum_ext.
  intros k Hk. rewrite H by auto. reflexivity.
Qed.

Ltac mulstep := rewrite mulc_ok by (cbn [nr nc mtrans]; lia); cbn [bind nr nc ent mtrans].
Ltac anystep := first [ mstep | mulstep ].

Lemma predict_std_ok : forall e dt, is_root e = false ->
  nr (e_cov e) = e_size e -> nc (e_cov e) = e_size e -> nr (e_Q e) = e_size e -> nc (e_Q e) = e_size e ->
  (18 <= e_size e)%nat ->
  exists c, predict_cov e dt = OK c /\ nr c = e_size e /\ nc c = e_size e /\
    eqm (e_size e) (e_size e) (ent c)
      (predicted (e_size e) dt (ent (e_cov e)) (fun i => ent (e_Q e) i i)).
Proof.
  intros e dt Hroot H1 H2 H3 H4 Hn. unfold predict_cov. rewrite Hroot.
  change g_body_state_size with 18%nat.
  destruct (transition_ok dt) as [F [-> [F1 [F2 HF]]]]. cbn [bind].
  rewrite usub_ok by lia. cbn [bind]. unfold add_diag. rewrite H1, H2, H3, H4, Nat.eqb_refl. cbn [bind].
  repeat anystep.
  eexists. split; [reflexivity|]. cbn [nr nc]. split; [reflexivity|]. split; [reflexivity|].
  intros i j Hi Hj. cbn [ent].
  unfold predicted. rewrite Fx_r by lia. rewrite !Fx_l by lia.
  set (n := e_size e) in *.
  assert (C1 : forall a b, madd (ent (e_cov e)) (mscal dt (diagm (fun i0 => ent (e_Q e) i0 i0))) a b =
    (if Nat.eqb a b then ent (e_cov e) a b + ent (e_Q e) a b * dt else ent (e_cov e) a b)).
  { intros a b. unfold madd, mscal, diagm. destruct (Nat.eqb a b) eqn:E; [apply Nat.eqb_eq in E; subst; ring|ring]. }
  rewrite !C1. rewrite F2.
  destruct (Nat.lt_ge_cases i 18) as [Li|Li]; destruct (Nat.lt_ge_cases j 18) as [Lj|Lj].
  - dranges. rewrite (FF_r (ent F) dt) by (auto; lia). rewrite !(FF_l (ent F) dt) by (auto; lia).
    rewrite !Nat.sub_0_r. cbn [Nat.add].
    destruct (Nat.ltb i 3) eqn:E1; destruct (Nat.ltb j 3) eqn:E2; try ring.
  - dranges. rewrite (FF_l (ent F) dt) by (auto; lia). rewrite Nat.sub_0_r.
    replace (18 + (j - 18))%nat with j by lia. cbn [Nat.add].
    rewrite (proj2 (Nat.ltb_ge j 3)) by lia. dranges; destruct (Nat.ltb i 3); ring.
  - dranges. rewrite (FF_r (ent F) dt) by (auto; lia). rewrite Nat.sub_0_r.
    replace (18 + (i - 18))%nat with i by lia. cbn [Nat.add].
    rewrite (proj2 (Nat.ltb_ge i 3)) by lia. dranges; destruct (Nat.ltb j 3); ring.
  - dranges. rewrite (proj2 (Nat.ltb_ge i 3)) by lia. rewrite (proj2 (Nat.ltb_ge j 3)) by lia. ring.
Qed.

Lemma predicted_psd : forall n dt P q, (0 <= dt) -> psd n P -> (forall i, (i < n)%nat -> 0 <= q i) ->
  psd n (predicted n dt P q).
Proof.
  intros n dt P q Hdt HP Hq. unfold predicted. apply psd_congr. apply psd_madd; auto.
  apply psd_mscal; auto. apply psd_diag; auto.
Qed.

(** Square-root form: the shapes. *)
Lemma predict_root_dims : forall e dt, is_root e = true ->
  nr (e_cov e) = e_size e -> nc (e_cov e) = e_size e -> nr (e_Q e) = e_size e -> nc (e_Q e) = e_size e ->
  (18 <= e_size e)%nat ->
  exists c, predict_cov e dt = OK c /\ nr c = e_size e /\ nc c = e_size e /\
    (forall i j, (j < i < e_size e)%nat -> ent c i j = 0).
Proof.
  intros e dt Hroot H1 H2 H3 H4 Hn. unfold predict_cov. rewrite Hroot.
  change g_body_state_size with 18%nat.
  destruct (transition_ok dt) as [F [-> [F1 [F2 HF]]]]. cbn [bind].
  rewrite usub_ok by lia. cbn [bind].
  repeat anystep.
  match goal with |- context [QR_r ?a ?b] => destruct (QR_r_spec a b) as [c [E [C1 [C2 [C3 _]]]]] end;
    [cbn [nr nc mscale]; lia|cbn [nr nc mscale]; lia|].
  cbn [nr nc mscale] in *. exists c. split; [exact E|]. split; [lia|]. split; [lia|].
  intros i j Hij. apply C3. lia.
Qed.
