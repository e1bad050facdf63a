(** Rounding of times. *)
From Coq Require Import Reals ZArith List Lia Lra.
From Flocq Require Import Core.
From Verif Require Import Base.Res Base.RDec Base.Mat Base.Geom Base.RMat Base.LinAlg Base.AMap Model.Types Model.MathHelper Model.Matrix3 Model.GpsHelper Model.Ekf Model.Ops Model.RosNode Model.Sensors Model.DoubleTime
  Spec.History Spec.Contract Spec.Callback Spec.World Spec.DoubleTime
  Proofs.Demo Proofs.Scalars Proofs.Named Proofs.Follows Proofs.World Proofs.WorldFinals.
Import ListNotations.
Open Scope R_scope.

Local Instance prec53 : Prec_gt_0 53. Proof. reflexivity. Qed.
Notation fexp := (FLT_exp (-1074) 53).

Lemma rnd_double : forall x, double (rnd x).
Proof. intros x. apply generic_format_round; auto with typeclass_instances. Qed.
Lemma rnd_exact : forall x, double x -> rnd x = x.
Proof. intros x H. apply round_generic; auto with typeclass_instances. Qed.
Lemma rnd_le : forall x y, x <= y -> rnd x <= rnd y.
Proof. intros x y H. apply round_le; auto with typeclass_instances. Qed.
Lemma small_int : forall m e, (Z.abs m < 2 ^ 53)%Z -> (-1074 <= e)%Z -> double (IZR m * bpow radix2 e).
Proof.
  intros m e Hm He. apply generic_format_FLT. apply (FLT_spec radix2 (-1074) 53 _ (Float radix2 m e)); [reflexivity|exact Hm|exact He].
Qed.
Lemma int_double : forall m, (Z.abs m < 2 ^ 53)%Z -> double (IZR m).
Proof. intros m H. replace (IZR m) with (IZR m * bpow radix2 0) by (cbn; ring). apply small_int; [exact H|lia]. Qed.

Lemma rnd_error : forall x e, Rabs x < bpow radix2 e -> (-1021 <= e)%Z -> Rabs (rnd x - x) <= / 2 * bpow radix2 (e - 53).
Proof.
  intros x e Hx He. eapply Rle_trans; [apply error_le_half_ulp; auto with typeclass_instances|].
  apply Rmult_le_compat_l; [lra|]. destruct (Req_dec x 0) as [->|Hn].
  - rewrite ulp_FLT_0 by auto with typeclass_instances. apply bpow_le. lia.
  - rewrite ulp_neq_0 by exact Hn. apply bpow_le. unfold cexp, FLT_exp. pose proof (mag_le_bpow radix2 x e Hn Hx). lia.
Qed.

(** *** Stamps *)
Lemma b0 : bpow radix2 0 = 1. Proof. reflexivity. Qed.
Lemma b31 : bpow radix2 31 = 2147483648. Proof. reflexivity. Qed.
Lemma bneg : forall n, bpow radix2 (- Z.of_nat n) = / 2 ^ n.
Proof.
  intros n. rewrite bpow_opp. f_equal. rewrite <- IZR_Zpower by lia. rewrite pow_IZR. reflexivity.
Qed.
Lemma unit_error : Rabs (g_nsec_to_sec_d - g_nsec_to_sec) <= / 2 ^ 83.
Proof.
  unfold g_nsec_to_sec_d. eapply Rle_trans; [apply (rnd_error _ (-29))|].
  - change (-29)%Z with (- Z.of_nat 29)%Z. rewrite bneg. unfold g_nsec_to_sec. rewrite Rabs_right by lra. lra.
  - lia.
  - change (-29 - 53)%Z with (- Z.of_nat 82)%Z. rewrite bneg. lra.
Qed.
Definition part (n : Z) : R := rnd (IZR n * g_nsec_to_sec_d).
Lemma part_range : forall n, (0 <= n < 1000000000)%Z ->
  0 <= part n < 1 /\ Rabs (part n - IZR n * g_nsec_to_sec) <= / 2 ^ 52.
Proof.
  intros n [H0 H1]. apply IZR_le in H0. assert (H1' : IZR n <= 999999999) by (apply IZR_le; lia).
  pose proof unit_error as U. apply Rabs_le_inv in U. unfold g_nsec_to_sec in U.
  assert (G0 : 0 <= g_nsec_to_sec_d) by lra.
  assert (X0 : 0 <= IZR n * g_nsec_to_sec_d) by (apply Rmult_le_pos; assumption).
  assert (D : - / 2 ^ 53 <= IZR n * g_nsec_to_sec_d - IZR n * (1 / 1000000000) <= / 2 ^ 53).
  { replace (IZR n * g_nsec_to_sec_d - IZR n * (1 / 1000000000)) with (IZR n * (g_nsec_to_sec_d - 1 / 1000000000)) by ring. nra. }
  assert (X1 : IZR n * g_nsec_to_sec_d <= 1 - 1 / 2 ^ 31) by lra.
  assert (E : Rabs (part n - IZR n * g_nsec_to_sec_d) <= / 2 ^ 54).
  { eapply Rle_trans; [apply (rnd_error _ 0)|].
    - rewrite b0, Rabs_right by lra. lra.
    - lia.
    - change (0 - 53)%Z with (- Z.of_nat 53)%Z. rewrite bneg. lra. }
  apply Rabs_le_inv in E. split; [split|].
  - unfold part. rewrite <- (rnd_exact 0) by (apply (int_double 0); reflexivity). apply rnd_le. exact X0.
  - lra.
  - apply Rabs_le. unfold g_nsec_to_sec. lra.
Qed.
Lemma stamp_error : forall s, valid s -> Rabs (RosHeaderToTime_d s - RosHeaderToTime s) <= 12 / 100000000.
Proof.
  intros s [[A B] H]. destruct (part_range _ H) as [[P0 P1] E]. unfold RosHeaderToTime_d, RosHeaderToTime. fold (part (st_nsec s)).
  apply IZR_le in A. assert (B' : IZR (st_sec s) <= 2147483647) by (apply IZR_le; lia).
  assert (F : Rabs (rnd (IZR (st_sec s) + part (st_nsec s)) - (IZR (st_sec s) + part (st_nsec s))) <= / 2 ^ 23).
  { eapply Rle_trans; [apply (rnd_error _ 31)|].
    - rewrite b31, Rabs_right by lra. lra.
    - lia.
    - change (31 - 53)%Z with (- Z.of_nat 22)%Z. rewrite bneg. lra. }
  apply Rabs_le_inv in E, F. apply Rabs_le. lra.
Qed.
Lemma stamp_order : forall s s', valid s -> valid s' -> (nanos s <= nanos s')%Z -> RosHeaderToTime_d s <= RosHeaderToTime_d s'.
Proof.
  intros s s' [A H] [A' H'] L. unfold nanos in L. unfold RosHeaderToTime_d. apply rnd_le.
  fold (part (st_nsec s)) (part (st_nsec s')).
  destruct (part_range _ H) as [[P0 P1] _]. destruct (part_range _ H') as [[P0' P1'] _].
  destruct (Z.eq_dec (st_sec s) (st_sec s')) as [E|E].
  - rewrite E. assert (L' : (st_nsec s <= st_nsec s')%Z) by lia. apply Rplus_le_compat_l. unfold part. apply rnd_le.
    apply Rmult_le_compat_r; [|apply IZR_le; exact L'].
    pose proof unit_error as U. apply Rabs_le_inv in U. unfold g_nsec_to_sec in U. lra.
  - assert (L' : (st_sec s + 1 <= st_sec s')%Z) by lia. apply IZR_le in L'. rewrite plus_IZR in L'. lra.
Qed.
Lemma stamp_date : forall s, recent s -> date (RosHeaderToTime_d s).
Proof.
  intros s [[A H] C]. split; [apply rnd_double|]. unfold RosHeaderToTime_d. fold (part (st_nsec s)).
  destruct (part_range _ H) as [[P0 P1] _]. apply IZR_le in C.
  assert (B' : IZR (st_sec s) <= 2147483647) by (apply IZR_le; lia). change (2 ^ 30)%Z with 1073741824%Z in C. split.
  - replace (2 ^ 30) with (IZR 1073741824) by (cbn; ring). rewrite <- (rnd_exact (IZR 1073741824)) by (apply int_double; reflexivity).
    apply rnd_le. lra.
  - replace (2 ^ 31) with (IZR 2147483648) by (cbn; ring). rewrite <- (rnd_exact (IZR 2147483648)) by (apply int_double; reflexivity).
    apply rnd_le. lra.
Qed.
(** Stamps that are a quarter of a microsecond apart are told apart. *)
Lemma stamp_apart : forall s s', valid s -> valid s' -> (nanos s + 240 < nanos s')%Z -> RosHeaderToTime_d s < RosHeaderToTime_d s'.
Proof.
  intros s s' V V' L. pose proof (stamp_error _ V) as E. pose proof (stamp_error _ V') as E'. apply Rabs_le_inv in E, E'.
  unfold nanos in L. apply IZR_lt in L. rewrite !plus_IZR, !mult_IZR in L. unfold RosHeaderToTime, g_nsec_to_sec in E, E'. lra.
Qed.

(** *** The grid of dates *)
Definition ticks (x : R) : Prop := exists m, x = IZR m * bpow radix2 (-22).
Lemma ticks_minus : forall x y, ticks x -> ticks y -> ticks (x - y).
Proof. intros x y [m ->] [n ->]. exists (m - n)%Z. rewrite minus_IZR. ring. Qed.
Lemma ticks_double : forall x, ticks x -> Rabs x <= 2 ^ 30 -> double x.
Proof.
  intros x [m ->] H. apply small_int; [|lia]. rewrite Rabs_mult, (Rabs_right (bpow _ _)) in H by (apply Rle_ge, bpow_ge_0).
  rewrite <- abs_IZR in H. change (-22)%Z with (- Z.of_nat 22)%Z in H. rewrite bneg in H.
  assert (K : IZR (Z.abs m) <= IZR (2 ^ 52)). { change (2 ^ 52)%Z with 4503599627370496%Z. lra. }
  apply le_IZR in K. lia.
Qed.
Lemma date_ticks : forall t, date t -> ticks t.
Proof.
  intros t [D [L U]]. destruct (Req_dec t (2 ^ 31)) as [->|N].
  - exists (2 ^ 53)%Z. change (-22)%Z with (- Z.of_nat 22)%Z. rewrite bneg. change (2 ^ 53)%Z with 9007199254740992%Z. lra.
  - unfold double, generic_format in D. rewrite D. unfold F2R. cbn [Fnum Fexp].
    assert (M : mag radix2 t = 31%Z :> Z).
    { apply mag_unique. rewrite Rabs_right by (cbn in L; lra). change (31 - 1)%Z with 30%Z.
      change (bpow radix2 30) with 1073741824. rewrite b31. cbn in *. lra. }
    unfold cexp, FLT_exp. rewrite M. change (Z.max (31 - 53) (-1074)) with (-22)%Z. eexists. reflexivity.
Qed.
Definition span (x : R) : Prop := ticks x /\ 0 <= x <= 2 ^ 30.

(** *** The clock of the filter *)
Definition fine (e : ekf) : Prop := e_time_init e = true -> date (e_ref_time e) /\ span (e_time e).
Lemma local_span : forall e t, fine e -> date t -> 0 <= local_of e t -> span (local_of e t).
Proof.
  intros e t F D L. unfold local_of in *. destruct (e_time_init e) eqn:E.
  - destruct (F E) as [DR _]. split; [apply ticks_minus; apply date_ticks; assumption|].
    destruct D as [_ [_ D]], DR as [_ [DR _]]. cbn in *. lra.
  - split; [exists 0%Z; ring|]. cbn. lra.
Qed.
Lemma fine_brought : forall e t e', fine e -> date t -> brought e t e' -> fine e'.
Proof.
  intros e t e' F D (T & I & R1 & R2) _. split.
  - destruct (e_time_init e) eqn:E; [rewrite R1 by reflexivity; apply F; exact E|rewrite R2 by reflexivity; exact D].
  - rewrite T. assert (C : span (clock_of e)).
    { unfold clock_of. destruct (e_time_init e) eqn:E; [apply F; exact E|]. split; [exists 0%Z; ring|]. cbn. lra. }
    destruct (Rle_dec (local_of e t) (clock_of e)) as [L|L]; [rewrite Rmax_right by exact L; exact C|].
    rewrite Rmax_left by lra. apply local_span; [exact F|exact D|]. destruct C as [_ C]. lra.
Qed.
Lemma fine_clock : forall e e', same_clock e e' -> fine e -> fine e'.
Proof. intros e e' [A [B C]] F. unfold fine. rewrite A, B, C. exact F. Qed.

Section Run.
Variable svd : m2 -> m2 * m2.
Variable hull : list (Z * Z) -> list (Z * Z).
Variable ecef_to_lla : V3 -> V3.
Variable mat_quat : mat R -> quat.
Variable solve : mat R -> V3 -> V3.
Lemma fine_step : forall w x w', winv w -> event_ok w x -> dated x -> fine (w_ekf w) ->
  wstep svd hull ecef_to_lla mat_quat solve w x = OK w' -> fine (w_ekf w').
Proof.
  intros w x w' W O D F H. destruct x as [p|p|p ts fs|m|id t image seen board|o].
  - cbn [wstep] in H. destruct (imu_new_inv w p W O) as [q [E [_ Fr]]]. rewrite E in H. cbn [bind] in H.
    injection H as <-. exact (fine_clock _ _ (frame'_clock _ _ Fr) F).
  - cbn [wstep] in H. destruct (gps_new_inv w p W O) as [q [E [_ Fr]]]. rewrite E in H. cbn [bind] in H.
    injection H as <-. exact (fine_clock _ _ (frame'_clock _ _ Fr) F).
  - cbn [wstep] in H. destruct O as [O1 [O2 O3]]. destruct (cam_new_inv w p ts fs W O1 O2 O3) as [q [E [_ Fr]]]. rewrite E in H. cbn [bind] in H.
    injection H as <-. exact (fine_clock _ _ (frame'_clock _ _ Fr) F).
  - destruct (deliver_sound svd hull ecef_to_lla mat_quat solve w m w' W O H) as [_ [_ [B N]]].
    assert (X : addressed w m \/ ~ addressed w m).
    { unfold addressed. destruct m; try (right; intros []; fail); destruct (mfind (msg_id _) (w_sensors w)) as [[ | | ]|]; auto. }
    destruct X as [X|X]; [apply (fine_brought _ _ _ F D (B X))|rewrite (N X); exact F].
  - cbn [wstep] in H. destruct (mfind id (w_sensors w)) as [s|] eqn:E; [|injection H as <-; exact F].
    destruct s as [u|u|trs fids]; try discriminate.
    destruct (camera_Callback mat_quat solve (w_cnt w) trs fids (w_ekf w) id t image seen board) as [[[[a b] c] e']|] eqn:C; cbn [bind] in H; [|discriminate].
    destruct (camera_sound mat_quat solve _ _ _ _ _ _ _ _ _ _ _ _ _ (wi_reach _ W) (wi_known _ W _ _ E) O C) as [_ [_ [_ B]]].
    injection H as <-. cbn [w_ekf]. destruct (image && negb _)%bool.
    + apply (fine_brought _ _ _ F D (proj1 B)).
    + destruct B as [-> _]. exact F.
  - cbn [wstep] in H. apply bind_OK in H. destruct H as [e' [E H]]. injection H as <-. cbn [w_ekf].
    destruct O as [O1 O2]. pose proof (step_frame' _ o e' (reachable_inv _ (wi_reach _ W)) O2 E) as Fr.
    destruct o; try contradiction; try (subst e'; exact F); exact (fine_clock _ _ (frame'_clock _ _ Fr) F).
Qed.
Lemma fine_run : forall l w w', winv w -> events_ok svd hull ecef_to_lla mat_quat solve w l -> Forall dated l -> fine (w_ekf w) ->
  wrun svd hull ecef_to_lla mat_quat solve w l = OK w' -> fine (w_ekf w').
Proof.
  induction l as [|x l IH]; intros w w' W O D F H; cbn [wrun] in H.
  - injection H as <-. exact F.
  - apply bind_OK in H. destruct H as [w1 [E H]]. destruct O as [O1 O2]. inversion D as [|x0 l0 D1 D2]; subst.
    apply (IH w1); auto.
    + eapply wstep_sound; eassumption.
    + eapply fine_step; eassumption.
Qed.
End Run.

Lemma exact_clock : forall svd hull ecef_to_lla mat_quat solve p q pe a l w t, noise_arg q ->
  events_ok svd hull ecef_to_lla mat_quat solve (world_init (EKF_init p q pe a)) l -> Forall dated l ->
  wrun svd hull ecef_to_lla mat_quat solve (world_init (EKF_init p q pe a)) l = OK w ->
  e_time_init (w_ekf w) = true -> date t ->
  double (e_ref_time (w_ekf w)) /\ double (e_time (w_ekf w)) /\
  local_time_d t (e_ref_time (w_ekf w)) = t - e_ref_time (w_ekf w) /\
  (e_time (w_ekf w) <= t - e_ref_time (w_ekf w) ->
   delta_time_d (t - e_ref_time (w_ekf w)) (e_time (w_ekf w)) = t - e_ref_time (w_ekf w) - e_time (w_ekf w)).
Proof.
  intros svd hull ecef_to_lla mat_quat solve p q pe a l w t Q O D H I T.
  assert (F : fine (w_ekf w)).
  { eapply fine_run; [exact (init_winv p q pe a Q)|exact O|exact D| |exact H]. intros X. discriminate X. }
  destruct (F I) as [DR [ST [S0 S1]]]. pose proof (date_ticks _ T) as TT. pose proof (date_ticks _ DR) as TR.
  pose proof (ticks_minus _ _ TT TR) as TD. destruct T as [_ [T0 T1]]. destruct DR as [DR [R0 R1]]. cbn in T0, T1, R0, R1, S1.
  split; [exact DR|]. split; [apply ticks_double; [exact ST|apply Rabs_le; cbn; lra]|]. split.
  - apply rnd_exact. apply ticks_double; [exact TD|]. apply Rabs_le. cbn. lra.
  - intros L. apply rnd_exact. apply ticks_double; [apply ticks_minus; assumption|]. apply Rabs_le. cbn. lra.
Qed.

(** What is left of the nanoseconds: the time since the first stamp. *)
Lemma elapsed_error : forall s s', recent s -> recent s' ->
  Rabs (local_time_d (RosHeaderToTime_d s') (RosHeaderToTime_d s) - (RosHeaderToTime s' - RosHeaderToTime s)) <= 24 / 100000000.
Proof.
  intros s s' V V'. pose proof (stamp_date _ V) as D. pose proof (stamp_date _ V') as D'.
  assert (X : local_time_d (RosHeaderToTime_d s') (RosHeaderToTime_d s) = RosHeaderToTime_d s' - RosHeaderToTime_d s).
  { apply rnd_exact. apply ticks_double; [apply ticks_minus; apply date_ticks; assumption|].
    destruct D as [_ D], D' as [_ D']. cbn in D, D' |- *. apply Rabs_le. lra. }
  rewrite X. pose proof (stamp_error _ (proj1 V)) as E. pose proof (stamp_error _ (proj1 V')) as E'. apply Rabs_le_inv in E, E'. apply Rabs_le. lra.
Qed.
(** Two stamps 100 ns apart. *)
Lemma stamps_refuted : exists s s', recent s /\ recent s' /\ (nanos s' = nanos s + 100)%Z /\ RosHeaderToTime_d s' = RosHeaderToTime_d s.
Proof.
  exists (mkStamp 1700000000 0), (mkStamp 1700000000 100). unfold recent, valid, nanos. cbn [st_sec st_nsec].
  split; [lia|]. split; [lia|]. split; [lia|].
  assert (X : RosHeaderToTime_d (mkStamp 1700000000 0) = 1700000000).
  { unfold RosHeaderToTime_d. cbn [st_sec st_nsec]. rewrite Rmult_0_l, (rnd_exact 0) by (apply (int_double 0); reflexivity).
    rewrite Rplus_0_r. apply rnd_exact. apply int_double. reflexivity. }
  rewrite X. unfold RosHeaderToTime_d. cbn [st_sec st_nsec]. fold (part 100).
  destruct (part_range 100) as [[P0 P1] E]; [lia|]. apply Rabs_le_inv in E. unfold g_nsec_to_sec in E.
  assert (B : Rabs (rnd (1700000000 + part 100) - (1700000000 + part 100)) <= / 2 ^ 23).
  { eapply Rle_trans; [apply (rnd_error _ 31)|].
    - rewrite b31, Rabs_right by lra. lra.
    - lia.
    - change (31 - 53)%Z with (- Z.of_nat 22)%Z. rewrite bneg. lra. }
  apply Rabs_le_inv in B.
  assert (D : date (rnd (1700000000 + part 100))).
  { split; [apply rnd_double|]. cbn. lra. }
  apply date_ticks in D. destruct D as [m D]. rewrite D in B |- *. change (-22)%Z with (- Z.of_nat 22)%Z in *. rewrite bneg in *.
  assert (M : m = (1700000000 * 4194304)%Z).
  { assert (B1 : IZR m < IZR (1700000000 * 4194304 + 1)) by (rewrite plus_IZR, mult_IZR; lra).
    assert (B2 : IZR (1700000000 * 4194304 - 1) < IZR m) by (rewrite minus_IZR, mult_IZR; lra).
    apply lt_IZR in B1, B2. lia. }
  rewrite M, mult_IZR. lra.
Qed.

(** *** Simulated times *)
Lemma count_close : forall T r, 0 <= T * r < 2 ^ 52 ->
  (Int_part (T * r) <= num_measurements_d T r <= Int_part (T * r) + 1)%Z.
Proof.
  intros T r [H0 H1]. unfold num_measurements_d. destruct (base_Int_part (T * r)) as [I0 I1].
  assert (J : (0 <= Int_part (T * r) < 2 ^ 52)%Z).
  { split; [|apply lt_IZR; change (IZR (2 ^ 52)) with 4503599627370496; cbn in H1; lra].
    assert (K : (-1 < Int_part (T * r))%Z) by (apply lt_IZR; lra). lia. }
  split.
  - apply Zfloor_lub. rewrite <- (rnd_exact (IZR (Int_part (T * r)))) by (apply int_double; lia). apply rnd_le. lra.
  - assert (U : rnd (T * r) <= IZR (Int_part (T * r) + 1)).
    { rewrite <- (rnd_exact (IZR (Int_part (T * r) + 1))) by (apply int_double; lia). apply rnd_le. rewrite plus_IZR. lra. }
    apply le_IZR. eapply Rle_trans; [apply Zfloor_lb|exact U].
Qed.
Lemma times_order : forall i j r init, (i <= j)%nat -> 0 < r -> message_time_d i r init <= message_time_d j r init.
Proof.
  intros i j r init H Hr. unfold message_time_d. apply rnd_le. apply Rplus_le_compat_r. apply rnd_le.
  apply Rmult_le_compat_r; [left; apply Rinv_0_lt_compat; exact Hr|]. apply le_INR. exact H.
Qed.
(** The double nearest to 7/10, ten times per second. *)
Definition seven_tenths : R := IZR 6305039478318694 * bpow radix2 (-53).
Lemma product_rounds : rnd (seven_tenths * 10) = 7.
Proof.
  set (x := seven_tenths * 10).
  assert (X : x = 7 - / 2 * / 2 ^ 50).
  { unfold x, seven_tenths. change (-53)%Z with (- Z.of_nat 53)%Z. rewrite bneg. lra. }
  assert (M : mag radix2 x = 3%Z :> Z).
  { apply mag_unique. change (bpow radix2 (3 - 1)) with 4. change (bpow radix2 3) with 8. rewrite Rabs_right; lra. }
  unfold rnd, round, scaled_mantissa, cexp. rewrite M. unfold F2R, FLT_exp. cbn [Fnum Fexp].
  change (Z.max (3 - 53) (-1074)) with (-50)%Z. change (- -50)%Z with (Z.of_nat 50).
  assert (P : x * bpow radix2 (Z.of_nat 50) = IZR (7 * 2 ^ 50 - 1) + / 2).
  { rewrite X. replace (bpow radix2 (Z.of_nat 50)) with (2 ^ 50) by (rewrite <- IZR_Zpower by lia; rewrite pow_IZR; reflexivity).
    change (7 * 2 ^ 50 - 1)%Z with 7881299347898367%Z. lra. }
  rewrite P.
  assert (N : ZnearestE (IZR (7 * 2 ^ 50 - 1) + / 2) = (7 * 2 ^ 50)%Z).
  { unfold Znearest. rewrite (Zfloor_imp (7 * 2 ^ 50 - 1)) by (rewrite plus_IZR; lra).
    replace (IZR (7 * 2 ^ 50 - 1) + / 2 - IZR (7 * 2 ^ 50 - 1)) with (/ 2) by ring. rewrite Rcompare_Eq by reflexivity.
    cbn [Z.even negb]. change (Z.even (7 * 2 ^ 50 - 1)) with false. cbn [negb].
    apply Zceil_imp. rewrite minus_IZR. lra. }
  rewrite N. change (-50)%Z with (- Z.of_nat 50)%Z. rewrite bneg. change (7 * 2 ^ 50)%Z with 7881299347898368%Z. lra.
Qed.
Lemma count_refuted : exists T r, double T /\ double r /\ 0 <= T * r < 2 ^ 52 /\ num_measurements_d T r = (Int_part (T * r) + 1)%Z.
Proof.
  exists seven_tenths, 10. split; [apply small_int; [reflexivity|lia]|]. split; [apply (int_double 10); reflexivity|].
  assert (X : seven_tenths * 10 = 7 - / 2 * / 2 ^ 50).
  { unfold seven_tenths. change (-53)%Z with (- Z.of_nat 53)%Z. rewrite bneg. lra. }
  split; [rewrite X; lra|]. unfold num_measurements_d. rewrite product_rounds.
  rewrite (Zfloor_IZR 7). assert (I : 6%Z = Int_part (seven_tenths * 10)).
  { destruct (base_Int_part (seven_tenths * 10)) as [I0 I1]. rewrite X in I0, I1 |- *.
    assert (K1 : (5 < Int_part (7 - / 2 * / 2 ^ 50))%Z) by (apply lt_IZR; lra).
    assert (K2 : (Int_part (7 - / 2 * / 2 ^ 50) < 7)%Z) by (apply lt_IZR; lra). lia. }
  rewrite <- I. reflexivity.
Qed.

(** An inertial unit that measures once. *)
Definition once (t : R) : list event := [ENewImu ex_imu; EMsg (MImu 1 t v0 one3 v0 one3)].
Lemma once_runs : forall svd hull ecef_to_lla mat_quat solve p q pe a t, noise_arg q -> p_root p = false -> 0 < p_imu_scale p ->
  let w0 := world_init (EKF_init p q pe a) in
  events_ok svd hull ecef_to_lla mat_quat solve w0 (once t) /\
  exists w, wrun svd hull ecef_to_lla mat_quat solve w0 (once t) = OK w /\ e_time_init (w_ekf w) = true.
Proof.
  intros svd hull ecef_to_lla mat_quat solve p q pe a t Q RO SC w0.
  assert (O : events_ok svd hull ecef_to_lla mat_quat solve w0 (once t)).
  { unfold once. cbn [events_ok event_ok]. split; [apply ex_imu_ok|]. intros w1 _. split; [|auto]. cbn. split; apply one3_ok. }
  assert (A : forall w1, wstep svd hull ecef_to_lla mat_quat solve w0 (ENewImu ex_imu) = OK w1 -> exists u, mfind 1 (w_sensors w1) = Some (SImu u)).
  { intros w1 E1. cbn [wstep] in E1. unfold imu_new in E1. cbn [new_sensor_id] in E1.
    destruct (imu_cov_of ex_imu) as [cov|]; cbn [bind] in E1; [|discriminate].
    destruct (RegisterIMU _ _ _ _) as [e1|]; cbn [bind] in E1; [|discriminate]. injection E1 as <-. eexists. reflexivity. }
  split; [exact O|].
  destruct (callback_total svd hull ecef_to_lla mat_quat solve p q pe a (once t) Q) as [w E].
  - exact RO.
  - exact SC.
  - exact O.
  - unfold once. cbn [events_plain plain_event msg_id]. split; [exact I|]. intros w1 E1. destruct (A w1 E1) as [u ->]. split; [exact I|auto].
  - exists w. split; [exact E|]. unfold once in E. cbn [wrun] in E. apply bind_OK in E. destruct E as [w1 [E1 E]].
    apply bind_OK in E. destruct E as [w2 [E2 E]]. injection E as <-. destruct (A w1 E1) as [u Hu].
    assert (W1 : winv w1).
    { eapply (wstep_sound svd hull ecef_to_lla mat_quat solve); [apply (init_winv p q pe a Q)| |exact E1]. apply ex_imu_ok. }
    destruct (deliver_sound svd hull ecef_to_lla mat_quat solve w1 (MImu 1 t v0 one3 v0 one3) w2 W1 (conj (one3_ok _) (one3_ok _)) E2) as [_ [_ [B _]]].
    destruct B as [_ [B _]]; [|exact B]. unfold addressed. cbn [msg_id]. rewrite Hu. exact I.
Qed.
Lemma once_case : forall svd hull ecef_to_lla mat_quat solve s, recent s ->
  let w0 := world_init (EKF_init (demo_par AAll false) demo_noise v0 0) in
  noise_arg demo_noise /\ events_ok svd hull ecef_to_lla mat_quat solve w0 (once (RosHeaderToTime_d s)) /\
  Forall dated (once (RosHeaderToTime_d s)) /\
  exists w, wrun svd hull ecef_to_lla mat_quat solve w0 (once (RosHeaderToTime_d s)) = OK w /\ e_time_init (w_ekf w) = true.
Proof.
  intros svd hull ecef_to_lla mat_quat solve s Hs w0. split; [apply demo_noise_arg|].
  assert (SC : 0 < p_imu_scale (demo_par AAll false)) by (cbn; lra).
  destruct (once_runs svd hull ecef_to_lla mat_quat solve (demo_par AAll false) demo_noise v0 0 (RosHeaderToTime_d s) demo_noise_arg eq_refl SC) as [O E].
  split; [exact O|]. split; [|exact E]. constructor; [exact I|constructor; [exact (stamp_date s Hs)|constructor]].
Qed.
