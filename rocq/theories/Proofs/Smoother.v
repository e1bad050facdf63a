(** The sampled truth: how many samples there are and which reads are
    defined. *)
From Coq Require Import Reals List Arith Bool ZArith Lia Lra.
From Verif Require Import Base.Res Base.Mat Base.RDec Base.Geom Model.TypeHelper Model.MathHelper
  Model.TruthEngine Spec.Truth Spec.Sampled.
Import ListNotations.
Open Scope R_scope.
Open Scope nat_scope.

Lemma vindex_some : forall A (l : list A) i a, nth_error l i = Some a -> vindex l i = OK a.
Proof. intros A l i a H. unfold vindex. now rewrite H. Qed.
Lemma vindex_inv : forall A (l : list A) i a, vindex l i = OK a -> nth_error l i = Some a.
Proof. intros A l i a H. unfold vindex in H. destruct (nth_error l i); [congruence|discriminate]. Qed.
Lemma vindex_out : forall A (l : list A) i, length l <= i -> vindex l i = UB.
Proof. intros A l i H. unfold vindex. apply nth_error_None in H. now rewrite H. Qed.
Lemma vindex_in : forall A (l : list A) i, i < length l -> exists a, vindex l i = OK a /\ nth_error l i = Some a.
Proof.
  intros A l i H. unfold vindex. destruct (nth_error l i) as [a|] eqn:E; [eauto|].
  apply nth_error_None in E. lia.
Qed.
Lemma nth_lt : forall A (l : list A) i a, nth_error l i = Some a -> i < length l.
Proof. intros A l i a H. apply nth_error_Some. congruence. Qed.

(** * The search *)
Lemma seek_inv : forall n times t j j' tj, nth_error times j = Some tj -> (tj <= t)%R -> n = length times - j ->
  seek n times t j = OK j' ->
  exists ta tb, nth_error times j' = Some ta /\ nth_error times (j' + 1) = Some tb /\ (ta <= t <= tb)%R.
Proof.
  induction n as [|n IH]; intros times t j j' tj Hj Ht Hn H.
  - apply nth_lt in Hj. lia.
  - cbn [seek] in H. rewrite (vindex_some _ _ _ _ Hj) in H. cbn [bind] in H.
    rewrite Rltb_ff in H by lra. binv H. apply vindex_inv in Hb. rename a into tj1.
    destruct (Rltb tj1 t) eqn:E.
    + apply Rltb_spec in E. apply (IH times t (j + 1) j' tj1 Hb); [lra|lia|exact Hc].
    + apply Rltb_false in E. injection Hc as <-. exists tj, tj1. repeat split; assumption || lra.
Qed.
Lemma seek_ok : forall n times t j tj, nth_error times j = Some tj -> (tj <= t)%R -> n = length times - j ->
  (exists k tk, j <= k /\ nth_error times k = Some tk /\ (t < tk)%R) ->
  is_ok (seek n times t j).
Proof.
  induction n as [|n IH]; intros times t j tj Hj Ht Hn (k & tk & Hk & Hkk & Hlt).
  - apply nth_lt in Hj. lia.
  - cbn [seek]. rewrite (vindex_some _ _ _ _ Hj). cbn [bind]. rewrite Rltb_ff by lra.
    assert (j <> k) by (intros ->; rewrite Hkk in Hj; injection Hj as <-; lra).
    pose proof (nth_lt _ _ _ _ Hkk) as Hl.
    destruct (vindex_in _ times (j + 1)) as (tj1 & V & Hv); [lia|]. rewrite V. cbn [bind].
    destruct (Rltb tj1 t) eqn:E; [|eexists; reflexivity]. apply Rltb_spec in E.
    apply (IH times t (j + 1) tj1 Hv); [lra|lia|]. exists k, tk. repeat split; [lia|assumption..].
Qed.

(** * The samples *)
Lemma interpolate_inv : forall ts times vs j out,
  (forall i a b, nth_error ts i = Some a -> nth_error ts (i + 1) = Some b -> (a < b)%R) ->
  (j = 0 \/ exists tj, nth_error times j = Some tj /\ forall t, In t ts -> (tj <= t)%R) ->
  interpolate_loop ts times vs j = OK out ->
  length out = length ts /\
  forall i t first last, nth_error ts i = Some t ->
    nth_error times 0 = Some first -> nth_error times (length times - 1) = Some last ->
    if Rltb first t && Rltb t last
    then exists v, nth_error out i = Some v /\ on_path times vs t v
    else nth_error out i = Some v0.
Proof.
  induction ts as [|t0 ts IH]; intros times vs j out Hinc Hj H.
  - injection H as <-. split; [reflexivity|]. intros i t f l Hi. destruct i; discriminate.
  - cbn [interpolate_loop] in H. binv H. rename a into first0. apply vindex_inv in Hb. binv Hc. rename a into last0.
    apply vindex_inv in Hb0.
    assert (Hinc' : forall i a b, nth_error ts i = Some a -> nth_error ts (i + 1) = Some b -> (a < b)%R).
    { intros i a b Ha Hb'. apply (Hinc (S i) a b); assumption. }
    assert (Hall : forall t, In t ts -> (t0 < t)%R).
    { intros t Ht. apply In_nth_error in Ht. destruct Ht as (i & Hi). revert t Hi.
      induction i as [|i IHi]; intros t Hi.
      - apply (Hinc 0 t0 t); [reflexivity|exact Hi].
      - assert (Hl : i < length ts) by (apply nth_lt in Hi; lia).
        destruct (vindex_in _ ts i Hl) as (u & _ & Hu). specialize (IHi u Hu).
        assert (u < t)%R; [|lra]. apply (Hinc' i u t Hu). replace (i + 1) with (S i) by lia. exact Hi. }
    destruct (Rltb first0 t0 && Rltb t0 last0) eqn:E.
    + apply andb_true_iff in E. destruct E as [E1 E2]. apply Rltb_spec in E1, E2.
      assert (J : exists tj, nth_error times j = Some tj /\ (tj <= t0)%R).
      { destruct Hj as [->|(tj & Hj & Hle)]; [exists first0; split; [exact Hb|lra]|].
        exists tj. split; [exact Hj|]. apply Hle. left. reflexivity. }
      destruct J as (tj & Hj1 & Hj2). binv Hc0. rename a into j'.
      destruct (seek_inv _ _ _ _ _ _ Hj1 Hj2 eq_refl Hb1) as (ta & tb & Ha & Hbb & Hab).
      pose proof (nth_lt _ _ _ _ Ha) as HL. destruct (length times <=? j') eqn:G; [apply Nat.leb_le in G; lia|].
      rewrite (vindex_some _ _ _ _ Ha), (vindex_some _ _ _ _ Hbb) in Hc. cbn [bind] in Hc.
      binv Hc. apply guard_inv, negb_true_iff, Reqb_false in Hb2.
      binv Hc0. rename a0 into va. apply vindex_inv in Hb3. binv Hc. rename a0 into vb. apply vindex_inv in Hb4.
      binv Hc0. rename a0 into rest. injection Hc as <-.
      destruct (IH times vs j' rest Hinc') as (Hlen & Hrest); [|exact Hb5|].
      { right. exists ta. split; [exact Ha|]. intros t Ht. specialize (Hall t Ht). lra. }
      split; [cbn; lia|]. intros i t f l Hi Hf Hl.
      destruct i as [|i]; [|exact (Hrest i t f l Hi Hf Hl)].
      injection Hi as <-. rewrite Hb in Hf. injection Hf as <-. rewrite Hb0 in Hl. injection Hl as <-.
      rewrite (Rltb_true _ _ E1), (Rltb_true _ _ E2). cbn [andb]. eexists. split; [reflexivity|].
      exists j', ta, tb, va, vb. repeat split; try assumption; try lra.
      unfold vadd, vscale, vsub. cbn [vx vy vz]. f_equal; field; lra.
    + binv Hc0. rename a into rest. injection Hc as <-.
      destruct (IH times vs j rest Hinc') as (Hlen & Hrest); [|exact Hb1|].
      { destruct Hj as [->|(tj & Hj & Hle)]; [left; reflexivity|]. right. exists tj. split; [exact Hj|].
        intros t Ht. apply Hle. right. exact Ht. }
      split; [cbn; lia|]. intros i t f l Hi Hf Hl.
      destruct i as [|i]; [|exact (Hrest i t f l Hi Hf Hl)].
      injection Hi as <-. rewrite Hb in Hf. injection Hf as <-. rewrite Hb0 in Hl. injection Hl as <-.
      rewrite E. reflexivity.
Qed.

Lemma increasing_le : forall times j k a b, increasing times -> j <= k ->
  nth_error times j = Some a -> nth_error times k = Some b -> (a <= b)%R.
Proof.
  intros times j k a b Hinc Hjk. revert b. induction Hjk as [|k Hjk IH]; intros b Ha Hb.
  - rewrite Ha in Hb. injection Hb as <-. lra.
  - assert (Hk : k < length times) by (apply nth_lt in Hb; lia).
    destruct (vindex_in _ times k Hk) as (u & _ & Hu). specialize (IH u Ha Hu).
    replace (S k) with (k + 1) in Hb by lia. pose proof (Hinc k u b Hu Hb). lra.
Qed.
Lemma interpolate_ok : forall ts times vs j, times <> [] -> increasing times -> length times <= length vs ->
  (forall i a b, nth_error ts i = Some a -> nth_error ts (i + 1) = Some b -> (a < b)%R) ->
  (j = 0 \/ exists tj, nth_error times j = Some tj /\ forall t, In t ts -> (tj <= t)%R) ->
  is_ok (interpolate_loop ts times vs j).
Proof.
  induction ts as [|t0 ts IH]; intros times vs j Hne Hti Hlen Hinc Hj; [eexists; reflexivity|].
  cbn [interpolate_loop].
  assert (HL : 0 < length times) by (destruct times; [contradiction|cbn; lia]).
  destruct (vindex_in _ times 0 HL) as (first & V1 & F1).
  destruct (vindex_in _ times (length times - 1)) as (last & V2 & F2); [lia|]. rewrite V1, V2. cbn [bind].
  assert (Hinc' : forall i a b, nth_error ts i = Some a -> nth_error ts (i + 1) = Some b -> (a < b)%R).
  { intros i a b Ha Hb'. apply (Hinc (S i) a b); assumption. }
  assert (Hall : forall t, In t ts -> (t0 < t)%R).
  { intros t Ht. apply In_nth_error in Ht. destruct Ht as (i & Hi). revert t Hi.
    induction i as [|i IHi]; intros t Hi.
    - apply (Hinc 0 t0 t); [reflexivity|exact Hi].
    - assert (Hl : i < length ts) by (apply nth_lt in Hi; lia).
      destruct (vindex_in _ ts i Hl) as (u & _ & Hu). specialize (IHi u Hu).
      assert (u < t)%R; [|lra]. apply (Hinc' i u t Hu). replace (i + 1) with (S i) by lia. exact Hi. }
  destruct (Rltb first t0 && Rltb t0 last) eqn:E.
  - apply andb_true_iff in E. destruct E as [E1 E2]. apply Rltb_spec in E1, E2.
    assert (J : exists tj, nth_error times j = Some tj /\ (tj <= t0)%R).
    { destruct Hj as [->|(tj & Hj & Hle)]; [exists first; split; [exact F1|lra]|].
      exists tj. split; [exact Hj|]. apply Hle. left. reflexivity. }
    destruct J as (tj & Hj1 & Hj2).
    destruct (seek_ok (length times - j) times t0 j tj Hj1 Hj2 eq_refl) as (j' & Hs).
    { exists (length times - 1), last. split; [|split; assumption]. apply nth_lt in Hj1. lia. }
    destruct (seek_inv _ _ _ _ _ _ Hj1 Hj2 eq_refl Hs) as (ta & tb & Ha & Hbb & Hab).
    rewrite Hs. cbn [bind]. pose proof (nth_lt _ _ _ _ Ha) as HLa. pose proof (nth_lt _ _ _ _ Hbb) as HLb.
    destruct (length times <=? j') eqn:G; [apply Nat.leb_le in G; lia|].
    rewrite (vindex_some _ _ _ _ Ha), (vindex_some _ _ _ _ Hbb). cbn [bind].
    pose proof (Hti j' ta tb Ha Hbb) as Hlt.
    rewrite (guard_ok (negb (Reqb (tb - ta) 0))); [|apply negb_true_iff, Reqb_false; lra]. cbn [bind].
    destruct (vindex_in _ vs j') as (va & Va & _); [lia|]. destruct (vindex_in _ vs (j' + 1)) as (vb & Vb & _); [lia|].
    rewrite Va, Vb. cbn [bind].
    destruct (IH times vs j' Hne Hti Hlen Hinc') as (rest & Hr).
    { right. exists ta. split; [exact Ha|]. intros t Ht. specialize (Hall t Ht). lra. }
    rewrite Hr. eexists. reflexivity.
  - destruct (IH times vs j Hne Hti Hlen Hinc') as (rest & Hr).
    { destruct Hj as [->|(tj & Hj & Hle)]; [left; reflexivity|]. right. exists tj. split; [exact Hj|].
      intros t Ht. apply Hle. right. exact Ht. }
    rewrite Hr. eexists. reflexivity.
Qed.

(** * Difference quotients *)
Lemma mapM_ok : forall A B (f : A -> res B) l, (forall x, In x l -> is_ok (f x)) -> is_ok (mapM f l).
Proof.
  intros A B f l. induction l as [|x l IH]; intros H; [eexists; reflexivity|]. cbn [mapM].
  destruct (H x (or_introl eq_refl)) as (y & ->). cbn [bind].
  destruct IH as (ys & ->); [intros z Hz; apply H; right; exact Hz|]. eexists. reflexivity.
Qed.
Lemma mapM_nth : forall A B (f : A -> res B) l out, mapM f l = OK out ->
  length out = length l /\ forall i x, nth_error l i = Some x -> exists y, f x = OK y /\ nth_error out i = Some y.
Proof.
  intros A B f l. induction l as [|x l IH]; intros out H; cbn [mapM] in H.
  - injection H as <-. split; [reflexivity|]. intros [|i] x; discriminate.
  - binv H. binv Hc. injection Hc0 as <-. destruct (IH _ Hb0) as (L & N). split; [cbn; lia|].
    intros [|i] y Hy; [injection Hy as <-; eauto|]. apply (N i y Hy).
Qed.
Lemma nth_seq : forall n i, i < n -> nth_error (seq 0 n) i = Some i.
Proof.
  intros n i H. rewrite (nth_error_nth' _ 0) by (rewrite seq_length; exact H). now rewrite seq_nth.
Qed.
Lemma derivative_inv : forall times vs out, Derivative times vs = OK out ->
  2 <= length vs /\ length out = length vs /\
  forall i a b ta tb, nth_error vs i = Some a -> nth_error vs (i + 1) = Some b ->
    nth_error times i = Some ta -> nth_error times (i + 1) = Some tb ->
    nth_error out i = Some (vdiv (vsub b a) (tb - ta)).
Proof.
  intros times vs out H. unfold Derivative in H. binv H. apply usub_inv in Hb. destruct Hb as [Hle ->].
  binv Hc. binv Hc0. apply guard_inv, negb_true_iff, Nat.eqb_neq in Hb0. binv Hc. injection Hc0 as <-.
  destruct (mapM_nth _ _ _ _ _ Hb) as (L & N). rewrite seq_length in L.
  split; [lia|]. split; [rewrite app_length; cbn; lia|].
  intros i a2 b ta tb Ha Hbb Hta Htb. pose proof (nth_lt _ _ _ _ Hbb) as Hl.
  assert (Hi : i < length vs - 1) by lia. destruct (N i i (nth_seq _ _ Hi)) as (y & Hy & Hn).
  rewrite (vindex_some _ _ _ _ Ha), (vindex_some _ _ _ _ Hbb), (vindex_some _ _ _ _ Hta),
    (vindex_some _ _ _ _ Htb) in Hy. cbn [bind] in Hy. binv Hy. injection Hc as <-.
  rewrite nth_error_app1 by lia. exact Hn.
Qed.
Lemma derivative_ok : forall times vs, 2 <= length vs -> length vs <= length times -> increasing times ->
  is_ok (Derivative times vs).
Proof.
  intros times vs H2 Hl Hinc. unfold Derivative. rewrite usub_ok by lia. cbn [bind].
  destruct (mapM_ok _ _ (fun i => let* b := vindex vs (i + 1) in let* a := vindex vs i in
    let* tb := vindex times (i + 1) in let* ta := vindex times i in
    let* _ := guard (negb (Reqb (tb - ta) 0)) in OK (vdiv (vsub b a) (tb - ta))) (seq 0 (length vs - 1))) as (ds & Hd).
  - intros i Hi. apply in_seq in Hi.
    destruct (vindex_in _ vs (i + 1)) as (b & -> & _); [lia|]. destruct (vindex_in _ vs i) as (a & -> & _); [lia|].
    destruct (vindex_in _ times (i + 1)) as (tb & -> & Htb); [lia|].
    destruct (vindex_in _ times i) as (ta & -> & Hta); [lia|]. cbn [bind].
    pose proof (Hinc i ta tb Hta Htb). rewrite guard_ok; [eexists; reflexivity|].
    apply negb_true_iff, Reqb_false. lra.
  - rewrite Hd. cbn [bind]. rewrite guard_ok by (apply negb_true_iff, Nat.eqb_neq; lia). cbn [bind].
    destruct (mapM_nth _ _ _ _ _ Hd) as (L & _). rewrite seq_length in L.
    destruct (vindex_in _ ds (length vs - 1 - 1)) as (x & -> & _); [lia|]. eexists. reflexivity.
Qed.

(** * Rounding *)
Lemma ceil_spec : forall x, (x <= IZR (c_ceil x) < x + 1)%R.
Proof.
  intros x. unfold c_ceil. rewrite opp_IZR. pose proof (base_Int_part (- x)) as [A B]. lra.
Qed.
Lemma ceil_nat : forall x n, to_unsigned (c_ceil x) = OK n -> (x <= INR n < x + 1)%R.
Proof.
  intros x n H. unfold to_unsigned in H. destruct (c_ceil x <? 0)%Z eqn:E; [discriminate|].
  apply Z.ltb_ge in E. injection H as <-. rewrite INR_IZR_INZ, Z2Nat.id by exact E. apply ceil_spec.
Qed.
Lemma trunc_spec : forall x, (0 <= x)%R -> exists k, to_unsigned (trunc x) = OK k /\ (INR k <= x < INR k + 1)%R /\
  IZR (trunc x) = INR k.
Proof.
  intros x H. unfold trunc. rewrite Rltb_ff by lra. pose proof (base_Int_part x) as [A B].
  assert (0 <= Int_part x)%Z. { apply le_IZR. assert (IZR (Int_part x) > -1)%R by lra.
    assert (-1 < Int_part x)%Z by (apply lt_IZR; lra). apply IZR_le. lia. }
  exists (Z.to_nat (Int_part x)). unfold to_unsigned. destruct (Int_part x <? 0)%Z eqn:E; [apply Z.ltb_lt in E; lia|].
  rewrite INR_IZR_INZ, Z2Nat.id by assumption. split; [reflexivity|]. split; [lra|reflexivity].
Qed.
Lemma grid_nth : forall rate n i, i < n -> nth_error (map (fun i => INR i / rate)%R (seq 0 n)) i = Some (INR i / rate)%R.
Proof.
  intros rate n i H. apply (map_nth_error (fun i => INR i / rate)%R). apply nth_seq. exact H.
Qed.
Lemma grid_inv : forall rate n i t, nth_error (map (fun i => INR i / rate)%R (seq 0 n)) i = Some t ->
  i < n /\ t = (INR i / rate)%R.
Proof.
  intros rate n i t H. assert (L : i < n). { apply nth_lt in H. rewrite map_length, seq_length in H. exact H. }
  rewrite grid_nth in H by exact L. injection H as <-. auto.
Qed.
Lemma grid_increasing : forall rate n, (0 < rate)%R -> increasing (map (fun i => INR i / rate)%R (seq 0 n)).
Proof.
  intros rate n H i a b Ha Hb. apply grid_inv in Ha, Hb. destruct Ha as [_ ->]. destruct Hb as [_ ->].
  rewrite plus_INR. cbn [INR]. apply Rmult_lt_compat_r; [apply Rinv_0_lt_compat; exact H|lra].
Qed.

(** * The engine *)
Lemma engine_inv : forall times poses angles pe ae stat maxt rate dp da s,
  mk_smoother times poses angles pe ae stat maxt rate dp da = OK s -> (0 < rate)%R ->
  exists n pe3 ae3 cp ca, sm_rate s = rate /\ sm_max_time s = maxt /\ sm_stationary_time s = stat /\
    2 <= n /\ (maxt * rate <= INR n < maxt * rate + 1)%R /\
    (forall l, In l (all_samples s) -> length l = n) /\
    StdToEigVec pe = OK pe3 /\ StdToEigVec ae = OK ae3 /\
    control_points (Nat.min (length poses) (length angles) / 3) poses pe3 dp = OK cp /\
    control_points (Nat.min (length poses) (length angles) / 3) angles ae3 da = OK ca /\
    (let grid := map (fun i => INR i / rate)%R (seq 0 n) in
     interpolate_loop grid times cp 0 = OK (sm_pos s) /\ interpolate_loop grid times ca 0 = OK (sm_ang s) /\
     Derivative grid (sm_pos s) = OK (sm_vel s) /\ Derivative grid (sm_vel s) = OK (sm_acc s) /\
     Derivative grid (sm_ang s) = OK (sm_ang_vel s) /\ Derivative grid (sm_ang_vel s) = OK (sm_ang_acc s)).
Proof.
  intros times poses angles pe ae stat maxt rate dp da s H Hr. unfold mk_smoother in H. cbv zeta in H.
  binv H. rename a into pe3. rename Hb into E1. binv Hc. rename a into ae3. rename Hb into E2.
  binv Hc0. rename a into cp. rename Hb into E3. binv Hc. rename a into ca. rename Hb into E4.
  binv Hc0. rename a into n. rename Hb into E5. binv Hc. rename a into pos. rename Hb into E6.
  binv Hc0. rename a into ang. rename Hb into E7. binv Hc. rename a into vel. rename Hb into E8.
  binv Hc0. rename a into acc. rename Hb into E9. binv Hc. rename a into avel. rename Hb into E10.
  binv Hc0. rename a into aacc. rename Hb into E11. injection Hc as <-.
  cbn [sm_rate sm_max_time sm_stationary_time sm_pos sm_vel sm_acc sm_ang sm_ang_vel sm_ang_acc all_samples].
  pose proof (grid_increasing rate n Hr) as G. unfold InterpolateVectors in E6, E7.
  destruct (interpolate_inv _ _ _ _ _ G (or_introl eq_refl) E6) as (L1 & _).
  destruct (interpolate_inv _ _ _ _ _ G (or_introl eq_refl) E7) as (L2 & _).
  rewrite map_length, seq_length in L1, L2.
  destruct (derivative_inv _ _ _ E8) as (A8 & B8 & _). destruct (derivative_inv _ _ _ E9) as (A9 & B9 & _).
  destruct (derivative_inv _ _ _ E10) as (A10 & B10 & _). destruct (derivative_inv _ _ _ E11) as (A11 & B11 & _).
  exists n, pe3, ae3, cp, ca. repeat split; try assumption; try lia.
  - apply ceil_nat in E5. lra.
  - apply ceil_nat in E5. lra.
  - intros l Hl. unfold all_samples in Hl. cbn in Hl. destruct Hl as [<-|[<-|[<-|[<-|[<-|[<-|[]]]]]]]; lia.
Qed.

(** Reading between the samples. *)
Lemma interpolated_inside : forall rate time values, (0 <= time * rate)%R ->
  (time * rate < INR (length values) - 1)%R ->
  exists k v, GetInterpolatedValue rate time values = OK v /\ on_line values k (time * rate) v.
Proof.
  intros rate time values H0 H1. destruct (trunc_spec _ H0) as (k & T & B & Z).
  assert (Hk : k + 1 < length values).
  { apply INR_lt. rewrite plus_INR. cbn [INR]. lra. }
  destruct (vindex_in _ values k) as (a & Va & Na); [lia|].
  destruct (vindex_in _ values (k + 1)) as (b & Vb & Nb); [lia|].
  unfold GetInterpolatedValue. cbv zeta. rewrite T. cbn [bind]. rewrite Va, Vb. cbn [bind]. rewrite Z.
  eexists k, _. split; [reflexivity|]. exists a, b. repeat split; try assumption; try lra.
  unfold vadd, vscale, vsub. cbn [vx vy vz]. f_equal; ring.
Qed.
Lemma interpolated_past : forall rate time values, (0 <= time * rate)%R ->
  (INR (length values) - 1 <= time * rate)%R -> GetInterpolatedValue rate time values = UB.
Proof.
  intros rate time values H0 H1. destruct (trunc_spec _ H0) as (k & T & B & Z).
  assert (Hk : length values <= k + 1).
  { apply INR_le. rewrite plus_INR. cbn [INR]. destruct (Rle_lt_dec (INR (length values)) (INR k + 1)) as [L|L]; [exact L|].
    exfalso. assert (k + 1 < length values) by (apply INR_lt; rewrite plus_INR; cbn [INR]; lra).
    assert (S (k + 1) <= length values) by lia. apply le_INR in H2. rewrite S_INR, plus_INR in H2. cbn [INR] in H2. lra. }
  unfold GetInterpolatedValue. cbv zeta. rewrite T. cbn [bind].
  destruct (vindex values k); [|reflexivity]. cbn [bind]. now rewrite vindex_out.
Qed.

Lemma getter_get : forall get samples, In (get, samples) vector_getters ->
  get = sm_get samples /\ forall s, In (samples s) (all_samples s).
Proof.
  intros get samples H. unfold vector_getters in H. cbn in H. unfold all_samples.
  repeat (destruct H as [H|H]; [injection H as <- <-; split; [reflexivity|intros s; cbn; tauto]|]). destruct H.
Qed.
Lemma valid_ok : forall s t, (sm_stationary_time s <= t <= sm_stationary_time s + sm_max_time s)%R ->
  sm_IsTimeInvalid s (t - sm_stationary_time s) = false.
Proof. intros s t H. unfold sm_IsTimeInvalid. rewrite !Rltb_ff by lra. reflexivity. Qed.
Lemma invalid_ok : forall s t, (t < sm_stationary_time s \/ sm_stationary_time s + sm_max_time s < t)%R ->
  sm_IsTimeInvalid s (t - sm_stationary_time s) = true.
Proof.
  intros s t H. unfold sm_IsTimeInvalid. apply orb_true_iff. rewrite !Rltb_spec. lra.
Qed.

(** * Statements for every engine *)
Lemma built_inv : forall s, built s -> exists n, 2 <= n /\ (sm_max_time s * sm_rate s <= INR n < sm_max_time s * sm_rate s + 1)%R /\
  (forall l, In l (all_samples s) -> length l = n).
Proof.
  intros s (Hr & times & poses & angles & pe & ae & dp & da & H).
  destruct (engine_inv _ _ _ _ _ _ _ _ _ _ _ H Hr) as (n & _ & _ & _ & _ & _ & _ & _ & H2 & Hn & Hl & _).
  exists n. auto.
Qed.
Lemma pos_length : forall s l, built s -> In l (all_samples s) -> length l = length (sm_pos s).
Proof.
  intros s l B Hl. destruct (built_inv s B) as (n & _ & _ & L). rewrite (L l Hl). symmetry. apply L. left. reflexivity.
Qed.
Lemma read_inside : forall s get samples t, built s -> In (get, samples) vector_getters -> accepted s t -> (0 <= t)%R ->
  (t * sm_rate s < INR (length (sm_pos s)) - 1)%R ->
  exists k v, get s t = OK v /\ on_line (samples s) k (t * sm_rate s) v.
Proof.
  intros s get samples t B G A H0 Hlt. destruct (getter_get _ _ G) as (-> & Hin).
  pose proof (proj1 B) as Hr. unfold sm_get. cbv zeta. rewrite valid_ok by exact A.
  apply interpolated_inside.
  - apply Rmult_le_pos; lra.
  - rewrite (pos_length s _ B (Hin s)). exact Hlt.
Qed.
Lemma read_attitude : forall s t, built s -> accepted s t -> (0 <= t)%R ->
  (t * sm_rate s < INR (length (sm_pos s)) - 1)%R ->
  exists k v, sm_GetBodyAngularPosition s t = OK (EigVecToQuat v) /\ on_line (sm_ang s) k (t * sm_rate s) v.
Proof.
  intros s t B A H0 Hlt. pose proof (proj1 B) as Hr. unfold sm_GetBodyAngularPosition. cbv zeta.
  rewrite valid_ok by exact A. destruct (interpolated_inside (sm_rate s) t (sm_ang s)) as (k & v & E & L).
  - apply Rmult_le_pos; lra.
  - rewrite (pos_length s _ B); [exact Hlt|]. cbn. tauto.
  - exists k, v. rewrite E. split; [reflexivity|exact L].
Qed.
Lemma read_past : forall s get samples t, built s -> In (get, samples) vector_getters -> accepted s t -> (0 <= t)%R ->
  (INR (length (sm_pos s)) - 1 <= t * sm_rate s)%R -> get s t = UB.
Proof.
  intros s get samples t B G A H0 Hlt. destruct (getter_get _ _ G) as (-> & Hin).
  pose proof (proj1 B) as Hr. unfold sm_get. cbv zeta. rewrite valid_ok by exact A.
  apply interpolated_past.
  - apply Rmult_le_pos; lra.
  - rewrite (pos_length s _ B (Hin s)). exact Hlt.
Qed.
Lemma read_past_attitude : forall s t, built s -> accepted s t -> (0 <= t)%R ->
  (INR (length (sm_pos s)) - 1 <= t * sm_rate s)%R -> sm_GetBodyAngularPosition s t = UB.
Proof.
  intros s t B A H0 Hlt. pose proof (proj1 B) as Hr. unfold sm_GetBodyAngularPosition. cbv zeta.
  rewrite valid_ok by exact A. rewrite interpolated_past; [reflexivity| |].
  - apply Rmult_le_pos; lra.
  - rewrite (pos_length s _ B); [exact Hlt|]. cbn. tauto.
Qed.
(** Such accepted times exist for every engine. *)
Lemma last_interval : forall s get samples, built s -> (0 <= sm_stationary_time s)%R ->
  In (get, samples) vector_getters ->
  exists t, accepted s t /\ (t <= sm_stationary_time s + sm_max_time s)%R /\ get s t = UB.
Proof.
  intros s get samples B H0 G. pose proof (proj1 B) as Hr.
  destruct (built_inv s B) as (n & H2 & Hn & L).
  assert (Hn2 : (2 <= INR n)%R) by (apply (le_INR 2) in H2; cbn in H2; lra).
  assert (M : (0 < sm_max_time s)%R).
  { apply (Rmult_lt_reg_r (sm_rate s)); [exact Hr|]. lra. }
  exists (sm_stationary_time s + sm_max_time s)%R. split; [split; lra|]. split; [lra|].
  apply (read_past s get samples _ B G); [split; lra|lra|].
  rewrite (L (sm_pos s)) by (left; reflexivity).
  assert (0 <= sm_stationary_time s * sm_rate s)%R by (apply Rmult_le_pos; lra). lra.
Qed.
Lemma read_outside : forall s get samples t, In (get, samples) vector_getters -> ~ accepted s t ->
  get s t = OK v0 /\ sm_GetBodyAngularPosition s t = OK qid.
Proof.
  intros s get samples t G A. destruct (getter_get _ _ G) as (-> & _).
  assert (I : sm_IsTimeInvalid s (t - sm_stationary_time s) = true).
  { apply invalid_ok. unfold accepted in A. lra. }
  unfold sm_get, sm_GetBodyAngularPosition. cbv zeta. rewrite I. auto.
Qed.

(** What the position and angle samples are. *)
Lemma control_inv : forall size flat e draw cp, control_points size flat e draw = OK cp ->
  length cp = size /\ forall i, i < size -> exists p, point_at flat i p /\
    nth_error cp i = Some (if i =? 0 then p else draw i p e).
Proof.
  intros size flat e draw cp H. unfold control_points in H. destruct (mapM_nth _ _ _ _ _ H) as (L & N).
  rewrite seq_length in L. split; [exact L|]. intros i Hi. destruct (N i i (nth_seq _ _ Hi)) as (y & Hy & Hn).
  binv Hy. apply vindex_inv in Hb. binv Hc. apply vindex_inv in Hb0. binv Hc0. apply vindex_inv in Hb1.
  injection Hc as <-. exists (mkV3 a a0 a1). split; [repeat split; assumption|exact Hn].
Qed.
Lemma samples_on_path : forall times poses angles pe ae stat maxt rate dp da s,
  mk_smoother times poses angles pe ae stat maxt rate dp da = OK s -> (0 < rate)%R ->
  exists pe3 ae3 cp ca, StdToEigVec pe = OK pe3 /\ StdToEigVec ae = OK ae3 /\
    (let size := Nat.min (length poses) (length angles) / 3 in
     (length cp = size /\ forall i, i < size -> exists p, point_at poses i p /\
        nth_error cp i = Some (if i =? 0 then p else dp i p pe3)) /\
     (length ca = size /\ forall i, i < size -> exists p, point_at angles i p /\
        nth_error ca i = Some (if i =? 0 then p else da i p ae3))) /\
    forall i first last, i < length (sm_pos s) -> nth_error times 0 = Some first ->
      nth_error times (length times - 1) = Some last ->
      let t := (INR i / rate)%R in
      exists v w, nth_error (sm_pos s) i = Some v /\ nth_error (sm_ang s) i = Some w /\
        if Rltb first t && Rltb t last then on_path times cp t v /\ on_path times ca t w else v = v0 /\ w = v0.
Proof.
  intros times poses angles pe ae stat maxt rate dp da s H Hr.
  destruct (engine_inv _ _ _ _ _ _ _ _ _ _ _ H Hr) as
    (n & pe3 & ae3 & cp & ca & _ & _ & _ & H2 & Hn & L & E1 & E2 & E3 & E4 & E5 & E6 & _).
  exists pe3, ae3, cp, ca. split; [exact E1|]. split; [exact E2|]. split.
  - split; [apply (control_inv _ _ _ _ _ E3)|apply (control_inv _ _ _ _ _ E4)].
  - intros i first last Hi Hf Hl t. rewrite (L (sm_pos s)) in Hi by (left; reflexivity).
    pose proof (grid_increasing rate n Hr) as G.
    destruct (interpolate_inv _ _ _ _ _ G (or_introl eq_refl) E5) as (_ & P).
    destruct (interpolate_inv _ _ _ _ _ G (or_introl eq_refl) E6) as (_ & Q).
    specialize (P i t first last (grid_nth rate n i Hi) Hf Hl).
    specialize (Q i t first last (grid_nth rate n i Hi) Hf Hl).
    destruct (Rltb first t && Rltb t last).
    + destruct P as (v & P1 & P2). destruct Q as (w & Q1 & Q2). exists v, w. auto.
    + exists v0, v0. auto.
Qed.

(** The rates are difference quotients of neighbouring samples. *)
Lemma rate_samples : forall s l d i a b, built s -> In (l, d) (rates s) ->
  nth_error l i = Some a -> nth_error l (i + 1) = Some b ->
  nth_error d i = Some (vscale (sm_rate s) (vsub b a)).
Proof.
  intros s l d i a b (Hr & times & poses & angles & pe & ae & dp & da & H) Hin Ha Hb.
  destruct (engine_inv _ _ _ _ _ _ _ _ _ _ _ H Hr) as
    (n & pe3 & ae3 & cp & ca & _ & _ & _ & H2 & Hn & L & _ & _ & _ & _ & _ & _ & D1 & D2 & D3 & D4).
  assert (D : Derivative (map (fun i => (INR i / sm_rate s)%R) (seq 0 n)) l = OK d /\ length l = n).
  { unfold rates in Hin. cbn in Hin. unfold all_samples in L.
    destruct Hin as [E|[E|[E|[E|[]]]]]; injection E as <- <-; (split; [assumption|apply L; cbn; tauto]). }
  destruct D as (D & Ll). destruct (derivative_inv _ _ _ D) as (_ & _ & N).
  pose proof (nth_lt _ _ _ _ Hb) as Hi.
  rewrite (N i a b _ _ Ha Hb (grid_nth (sm_rate s) n i ltac:(lia)) (grid_nth (sm_rate s) n (i + 1) ltac:(lia))).
  f_equal. rewrite plus_INR. cbn [INR]. unfold vdiv, vscale, vsub. cbn [vx vy vz]. f_equal; field; lra.
Qed.

(** When the constructor succeeds. *)
Lemma control_ok : forall size flat e draw, 3 * size <= length flat -> is_ok (control_points size flat e draw).
Proof.
  intros size flat e draw H. apply mapM_ok. intros i Hi. apply in_seq in Hi.
  destruct (vindex_in _ flat (3 * i)) as (x & -> & _); [lia|].
  destruct (vindex_in _ flat (3 * i + 1)) as (y & -> & _); [lia|].
  destruct (vindex_in _ flat (3 * i + 2)) as (z & -> & _); [lia|]. eexists. reflexivity.
Qed.
Lemma engine_ok : forall times poses angles pe ae stat maxt rate dp da,
  times <> [] -> increasing times -> 3 * length times <= length poses -> 3 * length times <= length angles ->
  length pe = 3 -> length ae = 3 -> (0 < rate)%R -> (1 < maxt * rate)%R ->
  is_ok (mk_smoother times poses angles pe ae stat maxt rate dp da).
Proof.
  intros times poses angles pe ae stat maxt rate dp da Hne Hti Hp Ha Hpe Hae Hr Hn.
  unfold mk_smoother. cbv zeta. set (size := Nat.min (length poses) (length angles) / 3).
  assert (S1 : length times <= size).
  { unfold size. apply Nat.div_le_lower_bound; [lia|]. lia. }
  assert (S2 : 3 * size <= Nat.min (length poses) (length angles)).
  { unfold size. apply Nat.mul_div_le. lia. }
  destruct pe as [|e1 [|e2 [|e3 [|e4 pe]]]]; try discriminate.
  destruct ae as [|f1 [|f2 [|f3 [|f4 ae]]]]; try discriminate. cbn [StdToEigVec bind].
  destruct (control_ok size poses (mkV3 e1 e2 e3) dp) as (cp & Ec); [lia|]. rewrite Ec. cbn [bind].
  destruct (control_ok size angles (mkV3 f1 f2 f3) da) as (ca & Eca); [lia|]. rewrite Eca. cbn [bind].
  pose proof (ceil_spec (maxt * rate)) as C.
  assert (Z : (2 <= c_ceil (maxt * rate))%Z).
  { assert (1 < c_ceil (maxt * rate))%Z by (apply lt_IZR; lra). lia. }
  assert (U : to_unsigned (c_ceil (maxt * rate)) = OK (Z.to_nat (c_ceil (maxt * rate)))).
  { unfold to_unsigned. destruct (c_ceil (maxt * rate) <? 0)%Z eqn:E; [apply Z.ltb_lt in E; lia|reflexivity]. }
  rewrite U. cbn [bind]. set (n := Z.to_nat (c_ceil (maxt * rate))). assert (N2 : 2 <= n) by (unfold n; lia).
  pose proof (grid_increasing rate n Hr) as G.
  assert (GL : length (map (fun i => (INR i / rate)%R) (seq 0 n)) = n) by (rewrite map_length, seq_length; reflexivity).
  destruct (control_inv _ _ _ _ _ Ec) as (Lc & _). destruct (control_inv _ _ _ _ _ Eca) as (Lca & _).
  unfold InterpolateVectors.
  destruct (interpolate_ok (map (fun i => (INR i / rate)%R) (seq 0 n)) times cp 0 Hne Hti ltac:(lia) G (or_introl eq_refl)) as (pos & Ep).
  destruct (interpolate_ok (map (fun i => (INR i / rate)%R) (seq 0 n)) times ca 0 Hne Hti ltac:(lia) G (or_introl eq_refl)) as (ang & Ea).
  rewrite Ep, Ea. cbn [bind].
  destruct (interpolate_inv _ _ _ _ _ G (or_introl eq_refl) Ep) as (L1 & _).
  destruct (interpolate_inv _ _ _ _ _ G (or_introl eq_refl) Ea) as (L2 & _). rewrite GL in L1, L2.
  destruct (derivative_ok _ pos ltac:(lia) (eq_ind_r (fun k => _ <= k) (Nat.eq_le_incl _ _ L1) GL) G) as (vel & Ev).
  rewrite Ev. cbn [bind]. destruct (derivative_inv _ _ _ Ev) as (_ & L3 & _).
  destruct (derivative_ok (map (fun i => (INR i / rate)%R) (seq 0 n)) vel ltac:(lia) ltac:(lia) G) as (acc & Eacc).
  rewrite Eacc. cbn [bind].
  destruct (derivative_ok (map (fun i => (INR i / rate)%R) (seq 0 n)) ang ltac:(lia) ltac:(lia) G) as (av & Eav).
  rewrite Eav. cbn [bind]. destruct (derivative_inv _ _ _ Eav) as (_ & L4 & _).
  destruct (derivative_ok (map (fun i => (INR i / rate)%R) (seq 0 n)) av ltac:(lia) ltac:(lia) G) as (aa & Eaa).
  rewrite Eaa. eexists. reflexivity.
Qed.
