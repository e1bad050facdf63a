(** The rows of one feature before its position is projected out. *)
From Coq Require Import Reals List Arith Bool Lia Lra.
From Verif Require Import Base.Res Base.Mat Base.RDec Base.RSum Base.LinAlg Base.Geom Base.AMap Base.RMat
  Model.TypeHelper Model.Types Model.MathHelperMat Model.QR Model.MathHelper Model.Matrix3 Model.Ekf Model.Updater Model.Ops Model.MsckfUpdater
  Spec.Layout Spec.Contract Spec.Named Spec.Callback Spec.Unused Spec.ByName Spec.Unsure
  Proofs.Invariant Proofs.Named Proofs.Sizes Proofs.Follows Proofs.Unused Proofs.MsckfCallback Proofs.CamTrack Proofs.CamTrackRun.
Import ListNotations.
Open Scope R_scope.

Definition along_row (n : nat) (m : mat R) (w : nat -> R) (r : nat) : R := rsum n (fun j => ent m r j * w j).
Definition silent (m : mat R) (w : nat -> R) (r : nat) : Prop := forall j, ent m r j * w j = 0.

Lemma set_row : forall (m : mat R) i j p q b m' n w r, set_block m i j p q b = OK m' -> nc m = n ->
  along_row n m' w r = along_row n m w r + (if in_range r i p then rsum q (fun c => (ent b (r - i) c - ent m r (j + c)%nat) * w (j + c)%nat) else 0).
Proof.
  intros m i j p q b m' n w r E N. apply set_block_inv in E. destruct E as (_ & Hj & _ & _ & ->). unfold along_row. cbn [ent].
  destruct (in_range r i p) eqn:X; cbn [andb]; [|ring]. rewrite N in Hj.
  assert (SH : forall f g, (forall c, (c < n)%nat -> in_range c j q = false -> f c = g c) -> rsum n f = rsum n g + rsum q (fun c => f (j + c)%nat - g (j + c)%nat)).
  { intros f g Hfg. replace n with (j + (q + (n - j - q)))%nat by lia. rewrite !rsum_split.
    rewrite (rsum_ext j f g). 2:{ intros c Hc. apply Hfg; [lia|]. destruct (in_range c j q) eqn:Y; [apply in_range_spec in Y; lia|reflexivity]. }
    rewrite (rsum_ext (n - j - q) (fun i0 => f (j + (q + i0))%nat) (fun i0 => g (j + (q + i0))%nat)).
    2:{ intros c Hc. apply Hfg; [lia|]. destruct (in_range _ j q) eqn:Y; [apply in_range_spec in Y; lia|reflexivity]. }
    rewrite rsum_minus. ring. }
  rewrite (SH _ (fun c => ent m r c * w c)).
  - f_equal. apply rsum_ext. intros c Hc. assert (in_range (j + c) j q = true) as -> by (apply in_range_spec; lia).
    replace (j + c - j)%nat with c by lia. ring.
  - intros c _ ->. reflexivity.
Qed.
Lemma set_silent : forall (m : mat R) i j p q b m' w r, set_block m i j p q b = OK m' -> (forall c, (c < q)%nat -> w (j + c)%nat = 0) ->
  silent m w r -> silent m' w r.
Proof.
  intros m i j p q b m' w r E Z S c. apply set_block_inv in E. destruct E as (_ & _ & _ & _ & ->). cbn [ent].
  destruct (in_range r i p && in_range c j q) eqn:X; [|apply S]. apply andb_prop in X. destruct X as [_ X]. apply in_range_spec in X.
  replace c with (j + (c - j))%nat at 2 by lia. rewrite Z by lia. ring.
Qed.
Lemma set_other : forall (m : mat R) i j p q b m' r c, set_block m i j p q b = OK m' -> in_range r i p = false -> ent m' r c = ent m r c.
Proof. intros m i j p q b m' r c E X. apply set_block_inv in E. destruct E as (_ & _ & _ & _ & ->). cbn [ent]. rewrite X. reflexivity. Qed.

Lemma block_shift : forall (D P rot B : mat R) r v, rsum 3 (fun c => ent (dp D P (H_t (m3neg rot) B)) r c * v c) = - rsum 3 (fun c => ent (dp D P rot) r c * v c).
Proof.
  intros D P rot B r v. rewrite <- rsum_opp. apply rsum_ext. intros c Hc. unfold dp. cbn [ent]. unfold mm at 1 3.
  assert (L : forall k, ent (H_t (m3neg rot) B) k c = - ent rot k c).
  { intros k. unfold H_t. cbn [ent]. rewrite (proj2 (Nat.ltb_lt c 3) Hc). reflexivity. }
  rewrite (rsum_ext 3 (fun k => mm 2 (ent D) (ent P) r k * ent (H_t (m3neg rot) B) k c) (fun k => - (mm 2 (ent D) (ent P) r k * ent rot k c))).
  - rewrite rsum_opp. ring.
  - intros k _. rewrite L. ring.
Qed.

Lemma jac_shift : forall u k pc ac n ci pf ai i mx my Hf Hc Hf' Hc' v w, jac_part u k pc ac n ci pf ai i mx my Hf Hc = OK (Hf', Hc') ->
  nc Hf = 3%nat -> nc Hc = n -> a_alpha ai = 0 -> (mu_ext u = true -> forall c, (c < 6)%nat -> w (ci + c)%nat = 0) ->
  (forall c, (c < 3)%nat -> w (a_index ai + c)%nat = v c) -> (forall c, (3 <= c < 6)%nat -> w (a_index ai + c)%nat = 0) ->
  (forall r, (in_range r (2 * i) 2 = true -> silent Hc w r -> along_row n Hc' w r = - rsum 3 (fun c => ent Hf' r c * v c)) /\
    (in_range r (2 * i) 2 = false -> (forall c, ent Hf' r c = ent Hf r c) /\ (forall c, ent Hc' r c = ent Hc r c))) /\
  nc Hf' = 3%nat /\ nc Hc' = n.
Proof.
  intros u k pc ac n ci pf ai i mx my Hf Hc Hf' Hc' v w E NF NC AL WC WA WB. unfold jac_part in E. cbv zeta in E.
  destruct (ProjectionJacobian _) as [Hp|]; cbn [bind] in E; [|discriminate].
  destruct (set_block Hf _ _ _ _ _) as [f1|] eqn:F1; cbn [bind] in E; [|discriminate].
  match type of E with bind ?x _ = _ => destruct x as [c1|] eqn:C1; cbn [bind] in E; [|discriminate] end.
  rewrite (proj2 (Reqb_spec (a_alpha ai) 0) AL) in E. cbn [negb] in E.
  destruct (set_block c1 _ _ _ _ _) as [c2|] eqn:C2; cbn [bind] in E; [|discriminate]. injection E as <- <-.
  assert (S1 : nc c1 = nc Hc /\ (forall r, silent Hc w r -> silent c1 w r) /\ forall r c, in_range r (2 * i) 2 = false -> ent c1 r c = ent Hc r c).
  { destruct (mu_ext u); [|injection C1 as <-; auto]. specialize (WC eq_refl).
    destruct (set_block Hc _ _ _ _ _) as [m|] eqn:M; cbn [bind] in C1; [|discriminate].
    split; [apply set_block_shape in M; apply set_block_shape in C1; destruct M, C1; congruence|]. split.
    - intros r S. apply (set_silent _ _ _ _ _ _ _ w r C1); [intros c Hc0; rewrite <- Nat.add_assoc; apply WC; lia|].
      apply (set_silent _ _ _ _ _ _ _ w r M); [intros c Hc0; rewrite <- Nat.add_assoc; apply WC; lia|exact S].
    - intros r c X. rewrite (set_other _ _ _ _ _ _ _ r c C1 X). apply (set_other _ _ _ _ _ _ _ r c M X). }
  destruct S1 as (N1 & Q1 & O1). split.
  - intros r. split.
    + intros X S. apply Q1 in S. rewrite (set_row _ _ _ _ _ _ _ n w r C2) by congruence. rewrite X.
      assert (Z : along_row n c1 w r = 0) by (apply rsum_0; intros; apply S). rewrite Z.
      unfold g_aug_state_size. rewrite (rsum_split 3 3). rewrite (rsum_0 3 (fun c => _ * w (a_index ai + (3 + c))%nat)).
      2:{ intros c Hc0. rewrite WB by lia. ring. }
      rewrite (rsum_ext 3 _ (fun c => ent (dp (DistortionJacobian mx my k) Hp (H_t (m3neg (m3mul (m3tr (qmat ac)) (m3tr (qmat (a_ang ai)))))
        (m3mul (m3mul (m3mul (m3tr (qmat ac)) (m3tr (qmat (a_ang ai)))) (SkewSymmetric (vsub pf (a_pos ai)))) (m3tr (QuaternionJacobian (a_ang ai)))))) (r - 2 * i) c * v c)).
      2:{ intros c Hc0. pose proof (S (a_index ai + c)%nat) as Sc. rewrite WA in Sc by lia. rewrite WA by lia.
          rewrite Rmult_minus_distr_r, Sc. ring. }
      rewrite block_shift. rewrite Rplus_0_l, Rplus_0_r. f_equal. apply rsum_ext. intros c Hc0.
      apply set_block_inv in F1. destruct F1 as (_ & _ & _ & _ & ->). cbn [ent]. rewrite X.
      assert (in_range c 0 3 = true) as -> by (apply in_range_spec; lia). cbn [andb]. rewrite Nat.sub_0_r. reflexivity.
    + intros X. split; intros c; [apply (set_other _ _ _ _ _ _ _ r c F1 X)|]. rewrite (set_other _ _ _ _ _ _ _ r c C2 X). apply O1. exact X.
  - apply set_block_shape in F1. apply set_block_shape in C2. destruct F1, C2. split; congruence.
Qed.

Lemma rows_shift : forall l u k pc ac n ci pf e1 e i rf Hf Hc rf' Hf' Hc' e' v w, same_estimates e1 e ->
  feature_rows u k pc ac n ci pf e i l rf Hf Hc = OK (rf', Hf', Hc', e') ->
  nc Hf = 3%nat -> nc Hc = n -> (mu_ext u = true -> forall c, (c < 6)%nat -> w (ci + c)%nat = 0) ->
  (forall f t a x, GetAugState e1 (mu_id u) f t = OK (a, x) -> a_alpha a = 0 /\
     (forall c, (c < 3)%nat -> w (a_index a + c)%nat = v c) /\ forall c, (3 <= c < 6)%nat -> w (a_index a + c)%nat = 0) ->
  (forall r, (2 * i <= r)%nat -> silent Hc w r) ->
  (forall r, (2 * i <= r < 2 * (i + length l))%nat -> along_row n Hc' w r = - rsum 3 (fun c => ent Hf' r c * v c)) /\
  (forall r, (r < 2 * i)%nat -> (forall c, ent Hf' r c = ent Hf r c) /\ forall c, ent Hc' r c = ent Hc r c) /\ nc Hc' = n.
Proof.
  induction l as [|f l IH]; intros u k pc ac n ci pf e1 e i rf Hf Hc rf' Hf' Hc' e' v w S E NF NC WC WG SI.
  - cbn in E. injection E as <- <- <- <-. split; [intros r Hr; cbn in Hr; lia|]. auto.
  - cbn [feature_rows] in E. rewrite feature_row_form in E.
    destruct (GetAugState e (mu_id u) (fp_frame f) (fp_time f)) as [[ai e2]|] eqn:EA; cbn [bind] in E; [|discriminate].
    destruct (aug_again _ _ _ _ _ _ _ S EA) as [S2 [x EA1]].
    destruct (Project _) as [[px py]|] eqn:EP; cbn [bind] in E; [|discriminate].
    destruct (undo_pixel k (fp_kp f)) as [[mx my]|] eqn:EU; cbn [bind] in E; [|discriminate].
    destruct (set_block rf _ _ _ _ _) as [r1|] eqn:ER; cbn [bind] in E; [|discriminate].
    destruct (jac_part _ _ _ _ _ _ _ _ _ _ _ _ _) as [[f1 c1]|] eqn:EJ; cbn [bind] in E; [|discriminate].
    destruct (WG _ _ _ _ EA1) as (AL & WA & WB).
    destruct (jac_shift _ _ _ _ _ _ _ _ _ _ _ _ _ _ _ v w EJ NF NC AL WC WA WB) as (J & NF1 & NC1).
    assert (IR : forall r, (2 * i <= r < 2 * i + 2)%nat -> in_range r (2 * i) 2 = true) by (intros r Hr; apply in_range_spec; lia).
    assert (OR : forall r, (r < 2 * i \/ 2 * i + 2 <= r)%nat -> in_range r (2 * i) 2 = false).
    { intros r Hr. destruct (in_range r (2 * i) 2) eqn:X; [apply in_range_spec in X; lia|reflexivity]. }
    destruct (IH u k pc ac n ci pf e1 e2 (Datatypes.S i) r1 f1 c1 rf' Hf' Hc' e' v w S2 E NF1 NC1 WC WG) as (I1 & I2 & I3).
    { intros r Hr c. destruct (J r) as [_ Jo]. rewrite (proj2 (Jo (OR r ltac:(lia)))). apply SI. lia. }
    split; [|split; [|exact I3]].
    + intros r Hr. cbn [length] in Hr. destruct (le_lt_dec (2 * i + 2) r) as [L|L]; [apply I1; lia|].
      destruct (I2 r ltac:(lia)) as [A B]. destruct (J r) as [Ji _]. unfold along_row.
      rewrite (rsum_ext n _ (fun j => ent c1 r j * w j)) by (intros; rewrite B; reflexivity).
      rewrite (rsum_ext 3 (fun c => ent Hf' r c * v c) (fun c => ent f1 r c * v c)) by (intros; rewrite A; reflexivity).
      apply Ji; [apply IR; lia|apply SI; lia].
    + intros r Hr. destruct (I2 r ltac:(lia)) as [A B]. destruct (J r) as [_ Jo]. destruct (Jo (OR r ltac:(lia))) as [Jf Jc].
      split; intros c; [rewrite A; apply Jf|rewrite B; apply Jc].
Qed.

(** *** In a filter that clones at every frame *)
Lemma slot_label : forall e cam a, reachable e -> In a (aug_at e cam) -> exists p, forall k, (k < 6)%nat -> nth_error (layout (e_state e)) (a_index a + k) = Some (LAug cam p k).
Proof.
  intros e cam a Hr Ha. destruct (partition_ok e Hr) as [(_ & _ & _ & _ & _ & HA) _]. unfold aug_at in Ha.
  destruct (mfind cam (s_aug (e_state e))) as [l|] eqn:F.
  - unfold mget in Ha. rewrite F in Ha. destruct (In_nth_error _ _ Ha) as [p Hp]. exists p. intros k Hk. apply (HA cam l p a (mfind_in _ _ _ _ F) Hp k Hk).
  - unfold mget in Ha. rewrite F in Ha. destruct Ha.
Qed.
Lemma body_label : forall e k, (k < 18)%nat -> nth_error (layout (e_state e)) k = Some (LBody k).
Proof.
  intros e k Hk. unfold layout. rewrite nth_error_app1 by (rewrite map_length, seq_length; exact Hk).
  rewrite nth_error_map. replace (nth_error (seq 0 18) k) with (Some k); [reflexivity|]. symmetry.
  rewrite (nth_error_nth' _ 0%nat) by (rewrite seq_length; exact Hk). rewrite seq_nth by exact Hk. reflexivity.
Qed.
Lemma still : forall e v w i x, reachable e -> moved_along e v w -> nth_error (layout (e_state e)) i = Some x ->
  match x with LBody k => (3 <= k)%nat | LAug _ _ k => (3 <= k)%nat | _ => True end -> w i = 0.
Proof.
  intros e v w i x Hr (_ & _ & W) L K.
  assert (HI : (i < e_size e)%nat).
  { destruct (partition_ok e Hr) as [_ [_ L3]]. rewrite <- L3. apply nth_error_Some. congruence. }
  apply W; [exact HI| |].
  - destruct (le_lt_dec 3 i); [assumption|]. exfalso. rewrite (body_label e i) in L by lia. injection L as <-. cbn in K. lia.
  - intros cam a k Ha Hk ->. destruct (slot_label e cam a Hr Ha) as [p Hp]. rewrite (Hp k) in L by lia. injection L as <-. cbn in K. lia.
Qed.
Lemma lookup_all : forall e cam f t a x v w, reachable e -> p_aug (e_par e) = AAll -> (forall a, In a (aug_at e cam) -> a_alpha a = 0) -> moved_along e v w ->
  GetAugState e cam f t = OK (a, x) -> a_alpha a = 0 /\
     (forall c, (c < 3)%nat -> w (a_index a + c)%nat = v c) /\ forall c, (3 <= c < 6)%nat -> w (a_index a + c)%nat = 0.
Proof.
  intros e cam f t a x v w Hr A AL M G. unfold GetAugState in G. rewrite A in G. cbn [orb] in G. cbv zeta in G. injection G as <- _. rewrite touch_at.
  destruct (find_frame_in (aug_at e cam) f default_aug) as [->|I].
  - split; [reflexivity|]. split; intros c Hc.
    + apply (proj1 M). exact Hc.
    + apply (still e v w _ (LBody c) Hr M); [apply body_label; lia|lia].
  - split; [apply AL; exact I|]. split; intros c Hc.
    + apply (proj1 (proj2 M) cam); assumption.
    + destruct (slot_label e cam _ Hr I) as [p Hp]. apply (still e v w _ (LAug cam p c) Hr M); [apply Hp; lia|lia].
Qed.
Theorem before_projection : forall u k pc ac e c pf l rf Hf Hc e' v w, reachable e -> p_aug (e_par e) = AAll ->
  (forall a, In a (aug_at e (mu_id u)) -> a_alpha a = 0) -> mfind (mu_id u) (s_cam (e_state e)) = Some c -> (mu_ext u = true -> c_ext c = true) ->
  let n := (2 * length l)%nat in
  feature_rows u k pc ac (e_size e) (c_index c) pf e 0 l (mzero n 1) (mzero n 3) (mzero n (e_size e)) = OK (rf, Hf, Hc, e') -> moved_along e v w ->
  forall r, (r < n)%nat -> rsum (e_size e) (fun j => ent Hc r j * w j) = - rsum 3 (fun j => ent Hf r j * v j).
Proof.
  intros u k pc ac e c pf l rf Hf Hc e' v w Hr A AL C CE n E M r Hr0.
  destruct (rows_shift l u k pc ac (e_size e) (c_index c) pf e e 0 (mzero n 1) (mzero n 3) (mzero n (e_size e)) rf Hf Hc e' v w) as (H & _); auto.
  - apply same_refl.
  - intros U j Hj. destruct (partition_ok e Hr) as [(_ & _ & _ & HC & _) _]. apply (still e v w _ (LCam (mu_id u) j) Hr M); [|exact Logic.I].
    apply (HC (mu_id u) c (mfind_in _ _ _ _ C) (CE U) j Hj).
  - intros f t a x G. apply (lookup_all e (mu_id u) f t a x v w Hr A AL M G).
  - intros r0 _ j. cbn. ring.
  - apply H. unfold n in Hr0. lia.
Qed.
(** A projection that removes the position of the feature would make the
    measurement blind. *)
Lemma mm_row : forall n s T (H : mat R) (w : nat -> R) r, rsum s (fun j => mm n T (ent H) r j * w j) = rsum n (fun i => T r i * rsum s (fun j => ent H i j * w j)).
Proof.
  intros n s T H w r. unfold mm. rewrite (rsum_ext s _ (fun j => rsum n (fun i => T r i * ent H i j * w j))).
  - rewrite rsum_swap. apply rsum_ext. intros i _. rewrite <- rsum_scal_l. apply rsum_ext. intros; ring.
  - intros j _. rewrite <- rsum_scal_r. reflexivity.
Qed.
Theorem projected_blind : forall u k pc ac e c pf l rf Hf Hc e' m T, reachable e -> p_aug (e_par e) = AAll ->
  (forall a, In a (aug_at e (mu_id u)) -> a_alpha a = 0) -> mfind (mu_id u) (s_cam (e_state e)) = Some c -> (mu_ext u = true -> c_ext c = true) ->
  let n := (2 * length l)%nat in
  feature_rows u k pc ac (e_size e) (c_index c) pf e 0 l (mzero n 1) (mzero n 3) (mzero n (e_size e)) = OK (rf, Hf, Hc, e') ->
  (forall r j, (r < m)%nat -> (j < 3)%nat -> rsum n (fun i => T r i * ent Hf i j) = 0) ->
  blind e (mkmat m (e_size e) (mm n T (ent Hc))).
Proof.
  intros u k pc ac e c pf l rf Hf Hc e' m T Hr A AL C CE n E Z v w r M Hr0. cbn [ent nr] in *. rewrite mm_row.
  rewrite (rsum_ext n _ (fun i => - (T r i * rsum 3 (fun j => ent Hf i j * v j)))).
  2:{ intros i Hi. rewrite (before_projection u k pc ac e c pf l rf Hf Hc e' v w Hr A AL C CE E M i Hi). ring. }
  rewrite rsum_opp. rewrite <- (mm_row n 3 T Hf v r). rewrite rsum_0; [ring|]. intros j Hj. unfold mm. rewrite Z by assumption. ring.
Qed.
