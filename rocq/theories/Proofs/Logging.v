(** Data and debug loggers. *)
From Coq Require Import Reals List Arith Bool String Lia Lra Sorted.
From Verif Require Import Base.RDec Base.Res Model.DataLogger Model.DebugLogger Spec.Sub Spec.LogFile.
Import ListNotations.
Open Scope nat_scope.

Lemma sub_refl : forall {A} (l : list A), sub l l.
Proof. induction l; [apply sub_nil | apply sub_keep; auto]. Qed.
Lemma sub_empty : forall {A} (l : list A), sub [] l.
Proof. induction l; [apply sub_nil | apply sub_skip; auto]. Qed.
Lemma sub_app : forall {A} (a b c d : list A), sub a b -> sub c d -> sub (a ++ c) (b ++ d).
Proof. intros A a b c d H. induction H; cbn; intros; [auto | apply sub_skip; auto | apply sub_keep; auto]. Qed.

(** Before logging is enabled nothing changes but the settings. *)
Definition idle (d n : string) (os : list lop) (l : logger) : Prop :=
  l_initialized l = false /\ l_file l = None /\ l_time_init l = 0%R /\ l_count l = 0 /\
  l_header l = header_of os /\ l_dir l = dir_of d os /\ l_name l = name_of n os.

Lemma header_snoc : forall os o, header_of (os ++ [o]) = match o with LHeader h => h | _ => header_of os end.
Proof. intros. unfold header_of. rewrite fold_left_app. reflexivity. Qed.
Lemma dir_snoc : forall d os o, dir_of d (os ++ [o]) = match o with LDir h => h | _ => dir_of d os end.
Proof. intros. unfold dir_of. rewrite fold_left_app. reflexivity. Qed.
Lemma name_snoc : forall d os o, name_of d (os ++ [o]) = match o with LName h => h | _ => name_of d os end.
Proof. intros. unfold name_of. rewrite fold_left_app. reflexivity. Qed.

Lemma enabled_in : forall os o, In LEnable os -> enabled (os ++ [o]) = enabled os ++ [o].
Proof.
  induction os as [|a os IH]; cbn; [tauto|]. intros o [H|H]; [now subst|].
  destruct a; auto.
Qed.
Lemma enabled_out : forall os, ~ In LEnable os -> enabled os = [].
Proof. induction os as [|a os IH]; cbn; [auto|]. intros H. destruct a; try (apply IH; tauto). tauto. Qed.

Lemma lop_enable_dec : forall os, In LEnable os \/ ~ In LEnable os.
Proof.
  induction os as [|a os [IH|IH]]; cbn; [tauto|tauto|].
  destruct a; try (right; intros [H|H]; [discriminate H | tauto]). left. now left.
Qed.

Lemma offered_in : forall os o, In LEnable os -> offered (os ++ [o]) = offered os ++ message_of o.
Proof. intros. unfold offered. rewrite enabled_in by auto. rewrite flat_map_app. cbn. now rewrite app_nil_r. Qed.
Lemma unlimited_in : forall os o, In LEnable os -> unlimited (os ++ [o]) = unlimited os ++ plain_of o.
Proof. intros. unfold unlimited. rewrite enabled_in by auto. rewrite flat_map_app. cbn. now rewrite app_nil_r. Qed.
Lemma offered_out : forall os, ~ In LEnable os -> offered os = [].
Proof. intros. unfold offered. now rewrite enabled_out. Qed.
Lemma offered_out1 : forall os o, ~ In LEnable os -> offered (os ++ [o]) = [].
Proof.
  intros os o H. unfold offered. replace (enabled (os ++ [o])) with (@nil lop); [reflexivity|].
  symmetry. induction os as [|a os IH]; cbn in *; [destruct o; auto|].
  destruct a; try (apply IH; tauto). tauto.
Qed.

Lemma lrun_snoc : forall l os o, lrun l (os ++ [o]) = lstep (lrun l os) o.
Proof. intros. unfold lrun. rewrite fold_left_app. reflexivity. Qed.

Section Session.
Variables (d n : string) (r0 : R).
Let run os := lrun (logger_init d n r0) os.

Lemma on_iff : forall os, l_on (run os) = true <-> In LEnable os.
Proof.
  induction os as [|o os IH] using rev_ind; [cbn; split; [discriminate | tauto]|].
  unfold run in *. rewrite lrun_snoc, in_app_iff.
  assert (K : forall l m, l_on (Log l m) = l_on l).
  { intros l m. unfold Log. destruct (l_on l) eqn:E; [|auto]. destruct (l_initialized l); cbn; auto. }
  assert (K2 : forall l m t, l_on (RateLimitedLog l m t) = l_on l).
  { intros l m t. unfold RateLimitedLog. destruct (l_on l) eqn:E; [|auto].
    destruct (negb _); [destruct (_ || _)|]; rewrite ?K; auto. }
  destruct o; cbn [lstep]; rewrite ?K, ?K2; cbn; rewrite ?IH; intuition discriminate.
Qed.

(** While nothing has been offered the logger is idle. *)
Lemma idle_run : forall os, offered os = [] -> idle d n os (run os).
Proof.
  induction os as [|o os IH] using rev_ind; intros H; [cbn; repeat split|].
  unfold run in *. rewrite lrun_snoc.
  assert (Ho : offered os = []).
  { destruct (lop_enable_dec os) as [K|K]; [|now apply offered_out].
    rewrite offered_in in H by exact K. now apply app_eq_nil in H. }
  specialize (IH Ho). destruct IH as [H1 [H2 [H3 [H4 [H5 [H6 H7]]]]]].
  assert (Hoff : message_of o <> [] -> l_on (lrun (logger_init d n r0) os) = false).
  { intros K. destruct (l_on _) eqn:E; [|reflexivity]. apply on_iff in E.
    rewrite offered_in in H by exact E. apply app_eq_nil in H. tauto. }
  unfold idle. rewrite header_snoc, dir_snoc, name_snoc.
  destruct o; cbn [lstep] in *.
  - unfold Log. rewrite Hoff by discriminate. tauto.
  - unfold RateLimitedLog. rewrite Hoff by discriminate. tauto.
  - cbn. tauto.
  - cbn. tauto.
  - cbn. tauto.
  - cbn. tauto.
  - cbn. tauto.
Qed.

(** Once a message has been offered. *)
Definition busy (f h : string) (os : list lop) (l : logger) : Prop :=
  l_initialized l = true /\ In LEnable os /\
  exists kept, l_file l = Some (f, h :: kept) /\ l_count l = List.length kept /\
    sub kept (offered os) /\ sub (unlimited os) kept /\
    (Forall (fun o => match o with LRate _ _ => False | _ => True end) os -> kept = offered os).

Lemma busy_settings : forall f h os l l' o, busy f h os l -> message_of o = [] ->
  l_initialized l' = l_initialized l -> l_file l' = l_file l -> l_count l' = l_count l -> busy f h (os ++ [o]) l'.
Proof.
  intros f h os l l' o [H1 [H2 [kept [H3 [H4 [H5 [H6 H7]]]]]]] Ho K1 K2 K3.
  split; [congruence|]. split; [apply in_or_app; auto|]. exists kept.
  rewrite K2, K3, offered_in, unlimited_in by exact H2. rewrite Ho.
  assert (plain_of o = []) as -> by (destruct o; try reflexivity; discriminate Ho).
  rewrite !app_nil_r. split; [auto|]. split; [auto|]. split; [auto|]. split; [auto|].
  intros HF. apply Forall_app in HF. now apply H7.
Qed.

Lemma busy_log : forall f h os l o m, busy f h os l -> l_on l = true -> message_of o = [m] -> busy f h (os ++ [o]) (Log l m).
Proof.
  intros f h os l o m [H1 [H2 [kept [H3 [H4 [H5 [H6 H7]]]]]]] Hon Ho.
  unfold Log. rewrite Hon, H1. split; [exact H1|]. split; [apply in_or_app; auto|].
  exists (kept ++ [m]). cbn. rewrite H3. cbn. rewrite app_length, H4; cbn.
  rewrite offered_in, unlimited_in by exact H2. rewrite Ho.
  split; [reflexivity|]. split; [lia|]. split; [apply sub_app; [auto|apply sub_refl]|].
  split.
  - apply sub_app; [exact H6|]. destruct o; cbn in *; try discriminate Ho; injection Ho as <-; [apply sub_refl|apply sub_empty].
  - intros HF. apply Forall_app in HF. destruct HF as [HF _]. now rewrite (H7 HF).
Qed.

Lemma busy_skip : forall f h os l m t, busy f h os l -> busy f h (os ++ [LRate m t]) l.
Proof.
  intros f h os l m t [H1 [H2 [kept [H3 [H4 [H5 [H6 H7]]]]]]].
  split; [auto|]. split; [apply in_or_app; auto|]. exists kept.
  rewrite offered_in, unlimited_in by exact H2. cbn. rewrite app_nil_r.
  split; [auto|]. split; [auto|]. split.
  - rewrite <- (app_nil_r kept). apply sub_app; [auto|apply sub_empty].
  - split; [auto|]. intros HF. apply Forall_app in HF. destruct HF as [_ HF]. inversion HF; tauto.
Qed.

Lemma busy_step : forall f h os o, busy f h os (run os) -> busy f h (os ++ [o]) (run (os ++ [o])).
Proof.
  intros f h os o H. unfold run in *. rewrite lrun_snoc.
  assert (Hon : l_on (lrun (logger_init d n r0) os) = true) by (apply on_iff, H).
  destruct o; cbn [lstep].
  - now apply busy_log.
  - unfold RateLimitedLog. rewrite Hon. destruct (negb _).
    + destruct (_ || _); [now apply busy_log | now apply busy_skip].
    + apply busy_log; [exact H | reflexivity | reflexivity].
  - eapply busy_settings; eauto.
  - eapply busy_settings; eauto.
  - eapply busy_settings; eauto.
  - eapply busy_settings; eauto.
  - eapply busy_settings; eauto.
Qed.

Lemma busy_first : forall pre o, first_message pre o ->
  busy (dir_of d pre ++ name_of n pre)%string (header_of pre) (pre ++ [o]) (run (pre ++ [o])).
Proof.
  intros pre o [H1 [H2 H3]]. unfold run. rewrite lrun_snoc.
  destruct (idle_run pre H2) as [K1 [K2 [K3 [K4 [K5 [K6 K7]]]]]].
  assert (Hon : l_on (run pre) = true) by now apply on_iff.
  unfold run in *. remember (lrun (logger_init d n r0) pre) as l.
  assert (E : exists m x, message_of o = [m] /\ lstep l o =
     Log (mkLogger (l_initialized l) (l_header l) (l_file l) (l_on l) (l_dir l) (l_name l) (l_rate l) x (l_count l)) m).
  { destruct o; try (exfalso; apply H3; reflexivity); cbn [lstep message_of].
    - exists m, (l_time_init l). split; [reflexivity|]. now destruct l.
    - exists m, t. split; [reflexivity|]. unfold RateLimitedLog. rewrite Hon, K3.
      replace (Reqb 0 0) with true by (symmetry; now apply Reqb_spec). reflexivity. }
  destruct E as [m [x [Em ->]]]. unfold Log. cbn. rewrite Hon, K1. cbn.
  split; [reflexivity|]. split; [apply in_or_app; auto|].
  exists [m]. cbn. rewrite K4, K5, K6, K7, offered_in, H2, Em by exact H1.
  split; [reflexivity|]. split; [reflexivity|]. split; [apply sub_refl|]. split; [|reflexivity].
  assert (H0 : unlimited pre = []).
  { unfold unlimited, offered in *. revert H2. induction (enabled pre) as [|a t IH]; [auto|].
    cbn. intros E2. apply app_eq_nil in E2. destruct E2 as [E2 E3]. rewrite (IH E3).
    destruct a; try reflexivity; discriminate E2. }
  rewrite unlimited_in, H0 by exact H1.
  destruct o; cbn in *; try discriminate Em; injection Em as <-; [apply sub_refl|apply sub_empty].
Qed.

Lemma busy_run : forall pre o post, first_message pre o ->
  busy (dir_of d pre ++ name_of n pre)%string (header_of pre) (pre ++ o :: post) (run (pre ++ o :: post)).
Proof.
  intros pre o post H. induction post as [|x post IH] using rev_ind; [now apply busy_first|].
  replace (pre ++ o :: post ++ [x]) with ((pre ++ o :: post) ++ [x]) by (rewrite <- app_assoc; reflexivity).
  now apply busy_step.
Qed.
End Session.

(** Every history either offers nothing or has a first message. *)
Lemma some_first : forall os, offered os = [] \/ exists pre o post, os = pre ++ o :: post /\ first_message pre o.
Proof.
  induction os as [|x os IH] using rev_ind; [left; reflexivity|].
  destruct IH as [IH|[pre [o [post [-> IH]]]]].
  - destruct (lop_enable_dec os) as [K|K].
    + destruct (message_of x) eqn:E.
      * left. rewrite offered_in, IH, E by exact K. reflexivity.
      * right. exists os, x, []. split; [reflexivity|]. split; [auto|]. split; [auto|]. congruence.
    + left. now apply offered_out1.
  - right. exists pre, o, (post ++ [x]). rewrite <- app_assoc. auto.
Qed.

Lemma file_absent : forall d n r os, offered os = [] -> l_file (lrun (logger_init d n r) os) = None.
Proof. intros d n r os H. apply (idle_run d n r os H). Qed.

Lemma file_present : forall d n r pre o post, first_message pre o ->
  exists kept,
    l_file (lrun (logger_init d n r) (pre ++ o :: post)) =
      Some ((dir_of d pre ++ name_of n pre)%string, header_of pre :: kept) /\
    sub kept (offered (pre ++ o :: post)) /\ sub (unlimited (pre ++ o :: post)) kept.
Proof.
  intros d n r pre o post H. destruct (busy_run d n r pre o post H) as [_ [_ [kept [H1 [_ [H2 [H3 _]]]]]]].
  eauto.
Qed.

Lemma file_exact : forall d n r pre o post, first_message pre o ->
  Forall (fun o => match o with LRate _ _ => False | _ => True end) (pre ++ o :: post) ->
  l_file (lrun (logger_init d n r) (pre ++ o :: post)) =
    Some ((dir_of d pre ++ name_of n pre)%string, header_of pre :: offered (pre ++ o :: post)).
Proof.
  intros d n r pre o post H HF. destruct (busy_run d n r pre o post H) as [_ [_ [kept [H1 [_ [_ [_ H2]]]]]]].
  rewrite H1. now rewrite (H2 HF).
Qed.

(** *** Rate limiting *)

Open Scope R_scope.

Definition ready (l : logger) (r : R) : Prop := l_on l = true /\ l_rate l = r.

Lemma rows_count : forall d n r0 os, In LEnable os -> rows (lrun (logger_init d n r0) os) = l_count (lrun (logger_init d n r0) os).
Proof.
  intros d n r0 os _. destruct (some_first os) as [H|[pre [o [post [-> H]]]]].
  - destruct (idle_run d n r0 os H) as [_ [K2 [_ [K4 _]]]]. unfold rows. now rewrite K2, K4.
  - destruct (busy_run d n r0 pre o post H) as [_ [_ [kept [H1 [H2 _]]]]]. unfold rows. now rewrite H1, H2.
Qed.

Lemma Log_fields : forall l m, l_on l = true ->
  l_on (Log l m) = true /\ l_rate (Log l m) = l_rate l /\ l_time_init (Log l m) = l_time_init l /\
  l_count (Log l m) = S (l_count l).
Proof. intros l m H. unfold Log. rewrite H. destruct (l_initialized l); cbn; auto. Qed.

Definition logs (l : logger) (ms : list (string * R)) : logger := lrun l (map (fun x => LRate (fst x) (snd x)) ms).

Lemma logs_cons : forall l m t ms, logs l ((m, t) :: ms) = logs (RateLimitedLog l m t) ms.
Proof. reflexivity. Qed.
Lemma logs_snoc : forall l m t ms, logs l (ms ++ [(m, t)]) = RateLimitedLog (logs l ms) m t.
Proof. intros. unfold logs. rewrite map_app. cbn. apply lrun_snoc. Qed.

Lemma last_from : forall {A} (k : list A) x d, last (x :: k) d = last k x.
Proof. induction k as [|y k IH]; intros x d; [reflexivity|]. change (last (x :: y :: k) d) with (last (y :: k) d). now rewrite !IH. Qed.

(** After the first message at a time other than zero. *)
Lemma limited : forall r t0 ms l, 0 < r -> t0 <> 0 ->
  l_on l = true -> l_rate l = r -> l_time_init l = t0 -> l_count l = 1%nat ->
  Sorted Rle (t0 :: map snd ms) ->
  let l' := logs l ms in
  l_on l' = true /\ l_rate l' = r /\ l_time_init l' = t0 /\ INR (l_count l') <= r * (last (map snd ms) t0 - t0) + 1.
Proof.
  intros r t0 ms l Hr Ht H1 H2 H3 H4. induction ms as [|[m t] ms IH] using rev_ind; intros HS; cbv zeta.
  - cbn. repeat split; auto. rewrite H4. cbn. lra.
  - rewrite logs_snoc. rewrite map_app in *. cbn [map snd] in *.
    assert (HS' : Sorted Rle (t0 :: map snd ms) /\ last (map snd ms) t0 <= t).
    { clear - HS. revert t0 HS. induction (map snd ms) as [|x k IH]; intros t0 HS.
      - cbn in *. inversion HS as [|? ? Ha Hb]. inversion Hb. subst. split; [repeat constructor|auto].
      - cbn [app] in HS. inversion HS as [|? ? Ha Hb]; subst. destruct (IH x Ha) as [K1 K2].
        split; [constructor; [auto|inversion Hb; subst; constructor; auto]|].
        rewrite last_from. exact K2. }
    destruct HS' as [HS' Hle]. destruct (IH HS') as [K1 [K2 [K3 K4]]].
    rewrite last_last. cbn zeta in *. set (k := logs l ms) in *.
    unfold RateLimitedLog. rewrite K1, K3, K2.
    replace (Reqb t0 0) with false by (symmetry; now apply Reqb_false). cbn [negb].
    replace (Reqb r 0) with false by (symmetry; apply Reqb_false; lra). cbn [orb].
    destruct (Rltb (INR (l_count k)) (r * (t - t0))) eqn:E.
    + apply Rltb_spec in E. destruct (Log_fields k m K1) as [F1 [F2 [F3 F4]]].
      rewrite F1, F2, F3, F4. repeat split; auto. rewrite S_INR. lra.
    + repeat split; auto. assert (r * (last (map snd ms) t0 - t0) <= r * (t - t0)) by (apply Rmult_le_compat_l; lra). lra.
Qed.

Lemma session_start : forall d n h r r0, let l := lrun (logger_init d n r0) [LHeader h; LEnable; LSetRate r] in
  l_on l = true /\ l_rate l = r /\ l_time_init l = 0 /\ l_count l = 0%nat.
Proof. intros. cbn. auto. Qed.

Lemma session_run : forall d n h r r0 ms, lrun (logger_init d n r0) (rate_session d n h r ms) =
  logs (lrun (logger_init d n r0) [LHeader h; LEnable; LSetRate r]) ms.
Proof. reflexivity. Qed.

Lemma first_rate : forall l m t, l_on l = true -> l_time_init l = 0 ->
  let l' := RateLimitedLog l m t in
  l_on l' = true /\ l_rate l' = l_rate l /\ l_time_init l' = t /\ l_count l' = S (l_count l).
Proof.
  intros l m t H1 H2. cbv zeta. unfold RateLimitedLog. rewrite H1, H2.
  replace (Reqb 0 0) with true by (symmetry; now apply Reqb_spec). cbn [negb].
  apply (Log_fields (mkLogger (l_initialized l) (l_header l) (l_file l) true (l_dir l) (l_name l) (l_rate l) t (l_count l)) m).
  reflexivity.
Qed.

Lemma session_rows : forall d n h r r0 ms,
  rows (lrun (logger_init d n r0) (rate_session d n h r ms)) = l_count (lrun (logger_init d n r0) (rate_session d n h r ms)).
Proof. intros. apply rows_count. unfold rate_session. right. now left. Qed.

Lemma rate_bound : forall d n h r r0 m0 t0 ms, 0 < r -> t0 <> 0 -> Sorted Rle (t0 :: map snd ms) ->
  INR (rows (lrun (logger_init d n r0) (rate_session d n h r ((m0, t0) :: ms)))) <= r * (last (map snd ms) t0 - t0) + 1.
Proof.
  intros d n h r r0 m0 t0 ms Hr Ht HS. rewrite session_rows, session_run, logs_cons.
  destruct (session_start d n h r r0) as [S1 [S2 [S3 S4]]].
  destruct (first_rate _ m0 t0 S1 S3) as [F1 [F2 [F3 F4]]].
  apply (limited r t0 ms _ Hr Ht F1); auto; congruence.
Qed.

(** A message is dropped only when the log is up to its rate. *)
Lemma dropped_only_ahead : forall d n h r r0 m0 t0 ms m t, 0 < r -> t0 <> 0 -> Sorted Rle (t0 :: map snd ms) ->
  let l := lrun (logger_init d n r0) (rate_session d n h r ((m0, t0) :: ms)) in
  let l' := lrun (logger_init d n r0) (rate_session d n h r ((m0, t0) :: ms ++ [(m, t)])) in
  rows l' = S (rows l) \/ (rows l' = rows l /\ r * (t - t0) <= INR (rows l)).
Proof.
  intros d n h r r0 m0 t0 ms m t Hr Ht HS. cbv zeta. rewrite !session_rows, !session_run, !logs_cons, logs_snoc.
  destruct (session_start d n h r r0) as [S1 [S2 [S3 S4]]].
  destruct (first_rate _ m0 t0 S1 S3) as [F1 [F2 [F3 F4]]].
  assert (L : l_count (RateLimitedLog (lrun (logger_init d n r0) [LHeader h; LEnable; LSetRate r]) m0 t0) = 1%nat) by congruence.
  destruct (limited r t0 ms _ Hr Ht F1 (eq_trans F2 S2) F3 L HS) as [K1 [K2 [K3 _]]].
  set (k := logs _ ms) in *. unfold RateLimitedLog. rewrite K1, K2, K3.
  replace (Reqb t0 0) with false by (symmetry; now apply Reqb_false). cbn [negb].
  replace (Reqb r 0) with false by (symmetry; apply Reqb_false; lra). cbn [orb].
  destruct (Rltb (INR (l_count k)) (r * (t - t0))) eqn:E.
  - left. apply (Log_fields k m K1).
  - right. split; [reflexivity|]. now apply Rltb_false in E.
Qed.

Lemma rate_zero : forall d n h r0 ms,
  rows (lrun (logger_init d n r0) (rate_session d n h 0 ms)) = List.length ms.
Proof.
  intros d n h r0 ms. rewrite session_rows, session_run.
  destruct (session_start d n h 0 r0) as [S1 [S2 [_ S4]]].
  remember (lrun (logger_init d n r0) [LHeader h; LEnable; LSetRate 0]) as l. clear Heql.
  enough (G : l_on (logs l ms) = true /\ l_rate (logs l ms) = 0 /\ l_count (logs l ms) = List.length ms) by apply G.
  induction ms as [|[m t] ms IH] using rev_ind; [cbn; auto|].
  rewrite logs_snoc, app_length. destruct IH as [H1 [H2 H3]]. set (k := logs l ms) in *.
  destruct (Req_EM_T (l_time_init k) 0) as [E|E].
  - destruct (first_rate k m t H1 E) as [F1 [F2 [_ F4]]]. rewrite F4, H3. cbn [List.length].
    split; [exact F1|]. split; [congruence|lia].
  - unfold RateLimitedLog. rewrite H1, H2. replace (Reqb (l_time_init k) 0) with false by (symmetry; now apply Reqb_false).
    replace (Reqb 0 0) with true by (symmetry; now apply Reqb_spec). cbn [orb negb].
    destruct (Log_fields k m H1) as [F1 [F2 [_ F4]]]. rewrite F4, H3. cbn [List.length].
    split; [auto|]. split; [congruence|lia].
Qed.

(** Messages at time zero are never limited. *)
Lemma zero_unlimited : forall d n h r r0 m k,
  rows (lrun (logger_init d n r0) (rate_session d n h r (repeat (m, 0) k))) = k.
Proof.
  intros d n h r r0 m k. rewrite session_rows, session_run.
  destruct (session_start d n h r r0) as [S1 [_ [S3 S4]]].
  remember (lrun (logger_init d n r0) [LHeader h; LEnable; LSetRate r]) as l. clear Heql.
  transitivity (l_count l + k)%nat; [|lia]. clear S4. revert l S1 S3. induction k as [|k IH]; intros l H1 H2; [cbn; lia|].
  cbn [repeat]. rewrite logs_cons. destruct (first_rate l m 0 H1 H2) as [F1 [_ [F3 F4]]].
  rewrite (IH _ F1 F3), F4. lia.
Qed.

Lemma zero_start : forall d n h r r0, 0 < r -> exists ms, Sorted Rle (map snd ms) /\
  Forall (fun x => snd x = 0) ms /\
  r * (last (map snd ms) 0 - 0) + 1 < INR (rows (lrun (logger_init d n r0) (rate_session d n h r ms))).
Proof.
  intros d n h r r0 Hr. exists (repeat (""%string, 0) 2). cbn [repeat map snd].
  split; [repeat constructor; apply Rle_refl|]. split; [repeat constructor|].
  change [(""%string, 0); (""%string, 0)] with (repeat (""%string, 0) 2). rewrite zero_unlimited. cbn. lra.
Qed.
