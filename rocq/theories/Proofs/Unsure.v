(** What no blind measurement can teach the abstract filter. *)
From Coq Require Import Reals List Arith Bool Lia Lra.
From Verif Require Import Base.Res Base.Mat Base.RDec Base.RSum Base.LinAlg Base.Inverse Base.Geom Base.AMap Model.Types Model.Ekf Model.Ops
  Spec.Contract Spec.ByName Proofs.Chance Proofs.Kernel.
Import ListNotations.
Open Scope R_scope.

(** The position of the body or of a clone along axis [k]. *)
Definition along (k : nat) (x : name) : R :=
  match x with NBody j => if Nat.eqb j k then 1 else 0 | NClone _ _ j => if Nat.eqb j k then 1 else 0 | _ => 0 end.
Definition common (x y : name) : R := 1 / 100 * (along 0 x * along 0 y + along 1 x * along 1 y + along 2 x * along 2 y).
Definition sees_none (D : list name) (m : nat) (H : nat -> name -> R) : Prop :=
  forall i k, (i < m)%nat -> (k < 3)%nat -> over D (fun x => H i x * along k x) = 0.

Lemma form_common : forall l, form common l =
  1 / 100 * (wsum l (along 0) * wsum l (along 0) + wsum l (along 1) * wsum l (along 1) + wsum l (along 2) * wsum l (along 2)).
Proof. intros l. unfold common. rewrite form_scal, !form_plus, !form_square. reflexivity. Qed.
Lemma common_psd : forall D, kpsd D common.
Proof.
  intros D l _. rewrite form_common. pose proof (Rle_0_sqr (wsum l (along 0))). pose proof (Rle_0_sqr (wsum l (along 1))). pose proof (Rle_0_sqr (wsum l (along 2))).
  unfold Rsqr in *. lra.
Qed.

Record doubtful (a : byname) : Prop := mkDoubtful {
  db_kept : kept a;
  db_nodup : NoDup (n_names a);
  db_sym : forall x y, In x (n_names a) -> In y (n_names a) -> n_cov a x y = n_cov a y x;
  db_rate : forall x, In x (n_names a) -> 0 <= n_rate a x;
  db_more : kpsd (n_names a) (fun x y => n_cov a x y - common x y) }.

Lemma cov_psd : forall a, kpsd (n_names a) (fun x y => n_cov a x y - common x y) -> kpsd (n_names a) (n_cov a).
Proof.
  intros a K. apply (kpsd_ext _ (fun x y => (n_cov a x y - common x y) + common x y)); [intros; ring|].
  apply kpsd_plus; [exact K|apply common_psd].
Qed.

(** A new quantity. *)
Lemma more_enrol : forall a l c stab, (forall k x, (k < 3)%nat -> In x l -> along k x = 0) -> psd (length l) (ent c) ->
  kpsd (n_names a) (fun x y => n_cov a x y - common x y) ->
  kpsd (l ++ n_names a) (fun x y => n_cov (nm_enrol a l c stab) x y - common x y).
Proof.
  intros a l c stab Z P K.
  assert (C : forall x y, In x l -> common x y = 0 /\ common y x = 0).
  { intros x y Hx. unfold common. rewrite (Z 0%nat x), (Z 1%nat x), (Z 2%nat x) by (lia || exact Hx). split; ring. }
  assert (J : kpsd (filter (fun x => if in_name_dec x l then false else true) (n_names a)) (fun x y => n_cov (nm_enrol a l c stab) x y - common x y)).
  { apply (kpsd_ext _ (fun x y => n_cov a x y - common x y)).
    - intros x y Hx Hy. apply filter_In in Hx. apply filter_In in Hy. destruct Hx as [_ Hx], Hy as [_ Hy].
      destruct (in_name_dec x l) as [|Ox]; [discriminate|]. destruct (in_name_dec y l) as [|Oy]; [discriminate|].
      cbn [n_cov nm_enrol]. rewrite (position_out x l Ox), (position_out y l Oy). reflexivity.
    - eapply kpsd_sub; [|exact K]. intros x Hx. apply filter_In in Hx. tauto. }
  apply (kpsd_sub (l ++ filter (fun x => if in_name_dec x l then false else true) (n_names a))).
  { intros x Hx. apply in_or_app. destruct (in_name_dec x l) as [I|O]; [left; exact I|]. right. apply filter_In.
    destruct (in_name_dec x l); [contradiction|]. apply in_app_or in Hx. tauto. }
  apply kpsd_join; [| |exact J].
  - intros x y Hx _ Oy. cbn [n_cov nm_enrol]. destruct (position_in x l Hx) as [i ->]. rewrite (position_out y l Oy).
    destruct (C x y Hx) as [-> ->]. split; ring.
  - apply (kpsd_ext _ (fun x y => match position x l, position y l with Some i, Some j => ent c i j | _, _ => 0 end)); [|apply kpsd_block; exact P].
    intros x y Hx Hy. cbn [n_cov nm_enrol]. destruct (position_in x l Hx) as [i ->], (position_in y l Hy) as [j ->].
    destruct (C x y Hx) as [-> _]. ring.
Qed.
(** A clone. *)
Lemma along_origin : forall k cam n x, (k < 3)%nat -> along k (origin cam n x) = along k x.
Proof.
  intros k cam n x Hk. destruct x as [j|i j|i j|i j|i j|i j|c m j]; cbn [origin]; try reflexivity.
  destruct ((c =? cam)%nat && (m =? n)%nat)%bool; [|reflexivity]. unfold pose_of. destruct (Nat.ltb_spec j 3); cbn [along]; [reflexivity|].
  destruct (Nat.eqb_spec (j + 6) k), (Nat.eqb_spec j k); try lia; reflexivity.
Qed.
Lemma common_origin : forall cam n x y, common (origin cam n x) (origin cam n y) = common x y.
Proof. intros. unfold common. rewrite !along_origin by lia. reflexivity. Qed.
Lemma more_clone : forall a cam, kept a -> kpsd (n_names a) (fun x y => n_cov a x y - common x y) ->
  kpsd (n_names (nm_clone a cam)) (fun x y => n_cov (nm_clone a cam) x y - common x y).
Proof.
  intros a cam K P. cbn [n_names n_cov nm_clone nm_windows].
  apply (kpsd_ext _ (fun x y => wsum [(1, origin cam (n_next a cam) x)] (fun u => wsum [(1, origin cam (n_next a cam) y)] (fun v => n_cov a u v - common u v)))).
  - intros x y _ _. rewrite !wsum_cons, !wsum_nil, common_origin. ring.
  - apply (kpsd_spreadout (n_names a) _ (fun x => [(1, origin cam (n_next a cam) x)])); [|exact P].
    intros x Hx w y [E|[]]. injection E as <- <-. apply origin_known; assumption.
Qed.
(** Prediction. *)
Definition push (dt : R) (x : name) : weights :=
  match x with NBody k => if (k <? 3)%nat then [(1, x); (dt, NBody (k + 3))] else [(1, x)] | _ => [(1, x)] end.
Lemma push_pushed : forall dt x g, wsum (push dt x) g = pushed dt g x.
Proof.
  intros dt x g. destruct x; cbn [push pushed]; try (rewrite wsum_cons, wsum_nil; ring).
  destruct (k <? 3)%nat; rewrite !wsum_cons, wsum_nil; ring.
Qed.
Lemma along_pushed : forall dt k x, (k < 3)%nat -> pushed dt (along k) x = along k x.
Proof.
  intros dt k x Hk. destruct x; cbn [pushed]; try reflexivity. destruct (Nat.ltb_spec k0 3); [|reflexivity]. cbn [along].
  destruct (Nat.eqb_spec (k0 + 3) k); [lia|]. ring.
Qed.
Lemma more_predict : forall a t, kept a -> NoDup (n_names a) -> (forall x, In x (n_names a) -> 0 <= n_rate a x) -> Rltb t (n_time a) = false ->
  kpsd (n_names a) (fun x y => n_cov a x y - common x y) ->
  kpsd (n_names (nm_predict a t)) (fun x y => n_cov (nm_predict a t) x y - common x y).
Proof.
  intros a t K N Q T P. unfold nm_predict. rewrite T. cbv zeta. set (dt := t - n_time a).
  assert (D : 0 <= dt). { unfold dt. unfold Rltb in T. destruct (Rlt_dec t (n_time a)); [discriminate|lra]. }
  destruct (n_gravity a); cbn [n_names n_cov nm_clock nm_windows]; [|exact P].
  apply (kpsd_ext _ (fun x y => wsum (push dt x) (fun u => wsum (push dt y) (fun v => diffused dt a u v - common u v)))).
  - intros x y _ _. rewrite (push_pushed dt x). 
    assert (X : forall h, pushed dt h x = wsum (push dt x) h) by (intros; symmetry; apply push_pushed).
    assert (Y : forall h, pushed dt h y = wsum (push dt y) h) by (intros; symmetry; apply push_pushed).
    rewrite !X. rewrite (wsum_ext (push dt x) _ (fun u => wsum (push dt y) (fun v => diffused dt a u v) + -1 * wsum (push dt y) (fun v => common u v))).
    2:{ intros w u _. rewrite <- wsum_scal, <- wsum_plus. apply wsum_ext. intros. ring. }
    rewrite wsum_plus, wsum_scal. rewrite (wsum_ext (push dt x) (fun u => pushed dt (fun y' => diffused dt a u y') y) (fun u => wsum (push dt y) (fun v => diffused dt a u v))) by (intros; apply Y).
    assert (Z : wsum (push dt x) (fun u => wsum (push dt y) (fun v => common u v)) = common x y).
    { unfold common.
      assert (V : forall k, (k < 3)%nat -> forall u, wsum (push dt y) (fun v => along k u * along k v) = along k u * along k y).
      { intros k Hk u. rewrite wsum_scal, push_pushed, along_pushed by exact Hk. reflexivity. }
      assert (U : forall k, (k < 3)%nat -> wsum (push dt x) (fun u => along k u * along k y) = along k x * along k y).
      { intros k Hk. rewrite (wsum_ext _ _ (fun u => along k y * along k u)) by (intros; ring). rewrite wsum_scal, push_pushed, along_pushed by exact Hk. ring. }
      rewrite (wsum_ext (push dt x) _ (fun u => 1 / 100 * (along 0 u * along 0 y + along 1 u * along 1 y + along 2 u * along 2 y))).
      - rewrite wsum_scal, !wsum_plus, !U by lia. reflexivity.
      - intros w u _. rewrite wsum_scal, !wsum_plus, !V by lia. reflexivity. }
    rewrite Z. ring.
  - apply (kpsd_spreadout (n_names a) _ (push dt)).
    + intros x Hx w y Hy. destruct x; cbn [push] in Hy; try (destruct Hy as [E|[]]; injection E as <- <-; exact Hx).
      destruct (Nat.ltb_spec k 3); [destruct Hy as [E|[E|[]]]|destruct Hy as [E|[]]]; injection E as <- <-; try exact Hx. apply K. lia.
    + apply (kpsd_ext _ (fun x y => (n_cov a x y - common x y) + (if name_dec x y then dt * n_rate a x else 0))); [intros; unfold diffused; ring|].
      apply kpsd_plus; [exact P|]. apply (kpsd_diag _ (fun x => dt * n_rate a x)); [exact N|]. intros x Hx. apply Rmult_le_pos; [exact D|apply Q; exact Hx].
Qed.

(** A measurement. *)
Section Measure.
Variables (a : byname) (m : nat) (H : nat -> name -> R) (N : mat R).
Hypothesis sym : forall x y, In x (n_names a) -> In y (n_names a) -> n_cov a x y = n_cov a y x.
Hypothesis more : kpsd (n_names a) (fun x y => n_cov a x y - common x y).
Hypothesis positive : spd m (ent N).
Hypothesis none : sees_none (n_names a) m H.

Let names := n_names a.
Let PHt x i := over names (fun y => n_cov a x y * H i y).
Let HP i y := over names (fun x => H i x * n_cov a x y).
Let S i j := over names (fun x => H i x * PHt x j) + ent N i j.
Let Si := finv m S.

Definition minus_seen (z : nat -> R) : weights := map (fun y => (- rsum m (fun i => z i * H i y), y)) names.
Lemma over_rsum' : forall n (f : nat -> name -> R) D, over D (fun x => rsum n (fun i => f i x)) = rsum n (fun i => over D (f i)).
Proof.
  intros n f D. induction D as [|x D IH]; cbn [over fold_right].
  - symmetry. apply rsum_0. reflexivity.
  - change (rsum n (fun i => f i x) + over D (fun x => rsum n (fun i => f i x)) = rsum n (fun i => f i x + over D (f i))). rewrite IH, rsum_plus. reflexivity.
Qed.
Lemma wsum_seen : forall z g, wsum (minus_seen z) g = - rsum m (fun i => z i * over names (fun y => H i y * g y)).
Proof.
  intros z g. transitivity (over names (fun y => rsum m (fun i => - z i * (H i y * g y)))).
  - unfold minus_seen. induction names as [|y D IH]; [reflexivity|]. cbn [map]. rewrite wsum_cons, IH. cbn [over fold_right]. f_equal.
    rewrite Ropp_mult_distr_l_reverse, <- rsum_scal_r, <- rsum_opp. apply rsum_ext. intros. ring.
  - rewrite over_rsum', <- rsum_opp. apply rsum_ext. intros i _. rewrite over_scal. ring.
Qed.
Lemma within_seen : forall z, within names (minus_seen z).
Proof. intros z w x Hx. unfold minus_seen in Hx. apply in_map_iff in Hx. destruct Hx as [y [E Hy]]. injection E as <- <-. exact Hy. Qed.
Lemma seen_common : forall z k, (k < 3)%nat -> wsum (minus_seen z) (along k) = 0.
Proof. intros z k Hk. rewrite wsum_seen, rsum_0; [ring|]. intros i Hi. unfold names. rewrite (none i k Hi Hk). ring. Qed.
Lemma HP_PHt : forall x i, In x names -> HP i x = PHt x i.
Proof. intros x i Hx. unfold PHt, HP. apply over_ext. intros y Hy. rewrite (sym x y Hx Hy). ring. Qed.
Lemma form_seen : forall z, form (n_cov a) (minus_seen z) = rsum m (fun i => rsum m (fun j => z i * over names (fun x => H i x * PHt x j) * z j)).
Proof.
  intros z. unfold form. rewrite wsum_seen, <- rsum_opp. apply rsum_ext. intros i _.
  rewrite (over_ext names _ (fun y => rsum m (fun j => - z j * (H i y * PHt y j)))).
  - rewrite over_rsum'. rewrite <- Ropp_mult_distr_r_reverse, <- rsum_opp, <- rsum_scal_l. apply rsum_ext. intros j _. rewrite over_scal. ring.
  - intros y Hy. rewrite wsum_seen, <- rsum_opp, <- rsum_scal_l. apply rsum_ext. intros j _. unfold PHt.
    rewrite (over_ext names (fun y0 => H j y0 * n_cov a y y0) (fun y0 => n_cov a y y0 * H j y0)) by (intros; ring). ring.
Qed.
Lemma seen_sym : forall i j, over names (fun x => H i x * PHt x j) = over names (fun x => H j x * PHt x i).
Proof.
  intros i j. unfold PHt.
  assert (X : forall D D' i j, (forall x y, In x D -> In y D' -> n_cov a x y = n_cov a y x) ->
    over D (fun x => H i x * over D' (fun y => n_cov a x y * H j y)) = over D' (fun y => H j y * over D (fun x => n_cov a y x * H i x))).
  { clear. intros D D' i j. induction D as [|x D IH]; intros Q.
    - cbn [over fold_right]. symmetry. apply over_zero. intros. ring.
    - change (H i x * over D' (fun y => n_cov a x y * H j y) + over D (fun x => H i x * over D' (fun y => n_cov a x y * H j y)) =
        over D' (fun y => H j y * (n_cov a y x * H i x + over D (fun x => n_cov a y x * H i x)))).
      rewrite IH by (intros; apply Q; [right|]; assumption). rewrite <- over_scal.
      assert (P : forall f g, over D' f + over D' g = over D' (fun y => f y + g y)).
      { clear. intros f g. induction D' as [|y D IH]; cbn [over fold_right]; [ring|]. unfold over in *. rewrite <- IH. ring. }
      rewrite P. apply over_ext. intros y Hy. rewrite (Q x y (or_introl eq_refl) Hy). ring. }
  apply X. intros x y Hx Hy. apply sym; assumption.
Qed.
Lemma S_pos : spd m S.
Proof.
  destruct positive as [P1 P2]. split.
  - intros i j Hi Hj. unfold S. rewrite seen_sym, (P1 i j Hi Hj). reflexivity.
  - intros z Hz. specialize (P2 z Hz). rewrite qf_expand in *.
    pose proof (cov_psd a more _ (within_seen z)) as Q. rewrite form_seen in Q.
    apply Rlt_le_trans with (rsum m (fun i => rsum m (fun j => z i * over names (fun y => H i y * PHt y j) * z j)) + rsum m (fun i => rsum m (fun j => z i * ent N i j * z j))); [lra|].
    right. rewrite <- rsum_plus. apply rsum_ext. intros i _. rewrite <- rsum_plus. apply rsum_ext. intros j _. unfold S. ring.
Qed.
Lemma Si_is : is_inv m S Si.
Proof. apply inv_spd, S_pos. Qed.
Lemma more_measured : kpsd (n_names (nm_measure a m H N)) (fun x y => n_cov (nm_measure a m H N) x y - common x y).
Proof.
  cbn [n_names nm_measure nm_windows]. intros l W. rewrite form_minus.
  set (p := fun i => wsum l (fun x => PHt x i)). set (z := fun i => rsum m (fun j => Si i j * p j)).
  assert (E1 : form (n_cov (nm_measure a m H N)) l = form (n_cov a) l - rsum m (fun i => p i * z i)).
  { cbn [n_cov nm_measure nm_windows]. fold names.
    rewrite form_minus. f_equal. unfold form.
    rewrite (wsum_ext l _ (fun x => rsum m (fun i => PHt x i * z i))).
    - rewrite wsum_rsum. apply rsum_ext. intros i _. unfold p. rewrite (wsum_ext l _ (fun x => z i * PHt x i)) by (intros; ring). rewrite wsum_scal. ring.
    - intros w x Hx. rewrite wsum_rsum. apply rsum_ext. intros i _. rewrite wsum_rsum. unfold z. rewrite <- rsum_scal_l. apply rsum_ext. intros j _.
      change (wsum l (fun y => PHt x i * Si i j * HP j y) = PHt x i * (Si i j * p j)). rewrite wsum_scal, Rmult_assoc. do 2 f_equal. unfold p.
      apply wsum_ext. intros w' y Hy. apply HP_PHt. eapply W. exact Hy. }
  assert (E2 : rsum m (fun i => rsum m (fun j => z i * S i j * z j)) = rsum m (fun i => p i * z i)).
  { apply rsum_ext. intros i Hi. transitivity (z i * rsum m (fun j => S i j * z j)); [rewrite <- rsum_scal_l; apply rsum_ext; intros; ring|].
    rewrite Rmult_comm. f_equal. unfold z.
    rewrite (rsum_ext m _ (fun j => rsum m (fun k => S i j * Si j k * p k))) by (intros; rewrite <- rsum_scal_l; apply rsum_ext; intros; ring).
    rewrite rsum_swap. rewrite (rsum_ext m _ (fun k => if Nat.eqb k i then p k else 0)).
    - rewrite (rsum_single m i); [rewrite Nat.eqb_refl; reflexivity|exact Hi|]. intros k _ Hk. destruct (Nat.eqb_spec k i); [contradiction|reflexivity].
    - intros k Hk. rewrite rsum_scal_r. destruct Si_is as [I _]. specialize (I i k Hi Hk). unfold mm in I. rewrite I. unfold idm.
      rewrite (Nat.eqb_sym i k). destruct (Nat.eqb k i); ring. }
  assert (E3 : form (n_cov a) (l ++ minus_seen z) = form (n_cov a) l - rsum m (fun i => p i * z i) - rsum m (fun i => rsum m (fun j => z i * ent N i j * z j))).
  { rewrite form_app, form_seen.
    assert (C1 : wsum l (fun x => wsum (minus_seen z) (fun y => n_cov a x y)) = - rsum m (fun i => p i * z i)).
    { rewrite (wsum_ext l _ (fun x => rsum m (fun i => - z i * PHt x i))).
      - rewrite wsum_rsum, <- rsum_opp. apply rsum_ext. intros i _. rewrite wsum_scal. unfold p. ring.
      - intros w x _. rewrite wsum_seen, <- rsum_opp. apply rsum_ext. intros i _. unfold PHt.
        rewrite (over_ext names (fun y0 => H i y0 * n_cov a x y0) (fun y0 => n_cov a x y0 * H i y0)) by (intros; ring). ring. }
    assert (C2 : wsum (minus_seen z) (fun x => wsum l (fun y => n_cov a x y)) = - rsum m (fun i => p i * z i)).
    { rewrite wsum_swap, <- C1. apply wsum_ext. intros w x Hx. apply wsum_ext. intros w' y Hy. apply sym; [eapply within_seen; exact Hy|eapply W; exact Hx]. }
    rewrite C1, C2.
    assert (E4 : rsum m (fun i => rsum m (fun j => z i * S i j * z j)) = rsum m (fun i => rsum m (fun j => z i * over names (fun x => H i x * PHt x j) * z j)) + rsum m (fun i => rsum m (fun j => z i * ent N i j * z j))).
    { rewrite <- rsum_plus. apply rsum_ext. intros i _. rewrite <- rsum_plus. apply rsum_ext. intros j _. unfold S. ring. }
    rewrite E2 in E4. lra. }
  assert (E5 : form common (l ++ minus_seen z) = form common l).
  { rewrite !form_common, !wsum_app, !seen_common by lia. ring. }
  assert (W' : within (n_names a) (l ++ minus_seen z)).
  { intros w x Hx. apply in_app_or in Hx. destruct Hx as [Hx|Hx]; [eapply W; exact Hx|eapply within_seen; exact Hx]. }
  pose proof (more _ W') as Q. rewrite form_minus, E3, E5 in Q.
  assert (NN : 0 <= rsum m (fun i => rsum m (fun j => z i * ent N i j * z j))).
  { rewrite <- qf_expand. apply spd_psd in positive. apply positive. }
  rewrite E1. lra.
Qed.
End Measure.
