(** GetAugState on reachable filters. *)
From Coq Require Import Reals List Arith Bool Lia Lra Sorted.
From Verif Require Import Base.Res Base.Mat Base.RDec Base.LinAlg Base.Geom Base.AMap Base.RMat
  Model.TypeHelper Model.Types Model.Ekf Model.Ops Spec.Layout Spec.History Spec.Contract Spec.Lookup
  Proofs.Wf Proofs.Register Proofs.Augment Proofs.Invariant Proofs.Demo Proofs.DemoFilter Proofs.Named Proofs.Sizes
  Proofs.Effects Proofs.Windows Proofs.Pruning Proofs.Finals Proofs.Lookup.
Import ListNotations.
Open Scope nat_scope.

Lemma aug_at_in : forall e k c, In c (aug_at e k) -> In (k, aug_at e k) (s_aug (e_state e)).
Proof.
  intros e k c H. unfold aug_at, mget in *. destruct (mfind k (s_aug (e_state e))) eqn:E; [|destruct H].
  apply mfind_in. exact E.
Qed.
Lemma stored_index : forall e k c, reachable e -> In c (aug_at e k) -> clone_index e k (a_index c).
Proof.
  intros e k c Hr H. destruct (partition_ok e Hr) as [[_ [_ [_ [_ [_ F]]]]] _].
  destruct (In_nth_error _ _ H) as [pos P]. exists pos. intros i Hi. apply (F k _ pos c (aug_at_in e k c H) P i Hi).
Qed.
Lemma youngest_in : forall l f c, youngest l f c -> In c l.
Proof. intros l f c [l1 [l2 [-> _]]]. apply in_app_iff. right. left. reflexivity. Qed.

Lemma frame_index : forall e cam frame time, reachable e -> per_frame e cam = true ->
  In frame (map a_frame (aug_at e cam)) ->
  exists a e', GetAugState e cam frame time = OK (a, e') /\ a_frame a = frame /\ clone_index e cam (a_index a).
Proof.
  intros e cam frame time Hr H Hin. destruct (lookup_frame e cam frame time H) as [a [e' [E [_ [Y _]]]]].
  exists a, e'. split; [exact E|]. destruct (youngest_dec (aug_at e cam) frame) as [[c Hc]|N].
  - rewrite (Y c Hc). split; [destruct Hc as [l1 [l2 [_ [F _]]]]; exact F|]. apply stored_index; [exact Hr|].
    eapply youngest_in. exact Hc.
  - apply in_map_iff in Hin. destruct Hin as [c [F C]]. exfalso. exact (N c C F).
Qed.

Lemma interp_index : forall e cam frame time before last, reachable e -> per_frame e cam = false ->
  aug_at e (shared_key e) = before ++ [last] -> ordered e (shared_key e) -> (a_time last < e_time e)%R ->
  exists a e', GetAugState e cam frame time = OK (a, e') /\ clone_index e (shared_key e) (a_index a).
Proof.
  intros e cam frame time before last Hr H L O T. destruct O as [O _]. rewrite L in O.
  destruct (Rlt_dec time (a_time last)) as [X|X].
  - destruct before as [|f b].
    + destruct (lookup_before e cam frame time last [] H L X) as [a [e' [E [_ [I _]]]]]. exists a, e'. split; [exact E|].
      rewrite I. apply stored_index; [exact Hr|]. rewrite L. left. reflexivity.
    + destruct (Rlt_dec time (a_time f)) as [Y|Y].
      * destruct (lookup_before e cam frame time f (b ++ [last]) H L Y) as [a [e' [E [_ [I _]]]]]. exists a, e'. split; [exact E|].
        rewrite I. apply stored_index; [exact Hr|]. rewrite L. left. reflexivity.
      * destruct (lookup_inside e cam frame time f (b ++ [last]) last H L O) as [a [e' [l1 [s0 [s1 [l2 [E [D [_ [_ [_ [_ [_ [I _]]]]]]]]]]]]]];
          [lra|apply in_app_iff; right; left; reflexivity|exact X|].
        exists a, e'. split; [exact E|]. rewrite I. apply stored_index; [exact Hr|]. rewrite D. apply in_app_iff. right. left. reflexivity.
  - destruct (lookup_after e cam frame time before last H L O ltac:(lra) T) as [a [e' [E [_ [_ [_ [_ [I _]]]]]]]].
    exists a, e'. split; [exact E|]. rewrite I. apply stored_index; [exact Hr|]. rewrite L. apply in_app_iff. right. left. reflexivity.
Qed.

Lemma missing_frame : forall e cam frame time, reachable e -> per_frame e cam = true ->
  ~ In frame (map a_frame (aug_at e cam)) ->
  exists a e', GetAugState e cam frame time = OK (a, e') /\ a_pos a = v0 /\ a_ang a = qid /\
    forall k, k < 6 -> nth_error (layout (e_state e)) (a_index a + k) = Some (LBody k).
Proof.
  intros e cam frame time Hr H Hn. destruct (lookup_frame e cam frame time H) as [a [e' [E [_ [_ N]]]]].
  destruct N as [N1 [N2 N3]]. { intros c Hc F. apply Hn. apply in_map_iff. exists c. auto. }
  exists a, e'. split; [exact E|]. split; [exact N1|]. split; [exact N2|]. rewrite N3. intros k Hk.
  do 6 (destruct k as [|k]; [reflexivity|]). lia.
Qed.

Lemma recent_frame : forall l e e' cam base frame time, reachable e -> respects e l -> run e l = OK e' ->
  p_aug (e_par e) = AAll -> Forall same_len l ->
  map a_frame (aug_at e cam) = last_n (e_max_len e) base ->
  In frame (last_n (e_max_len e) (base ++ frames_of cam l)) ->
  exists a e'', GetAugState e' cam frame time = OK (a, e'') /\ a_frame a = frame /\ clone_index e' cam (a_index a).
Proof.
  intros l e e' cam base frame time Hr Hs E HA Hl HB Hin.
  assert (G : reachable e' /\ e_par e' = e_par e).
  { clear HB Hin HA Hl. revert e Hr Hs E. induction l as [|o l IH]; intros e Hr Hs E; cbn [run respects] in *.
    - injection E as <-. auto.
    - destruct Hs as [C Hs]. destruct (step e o) as [e1|] eqn:E1; cbn [bind] in E; [|discriminate].
      destruct (step_len e o e1 (reachable_inv e Hr) C E1) as [_ P]. destruct (IH e1) as [A B]; auto.
      + eapply reachable_step; eauto.
      + split; congruence. }
  destruct G as [Hr' G].
  apply frame_index; [exact Hr'| |].
  - unfold per_frame. replace (p_aug (e_par e')) with AAll; [reflexivity|]. congruence.
  - rewrite (window_exact l e e' cam base Hr Hs E HA Hl HB). exact Hin.
Qed.

(** A clone at its own time. *)
Lemma sorted_mid : forall l1 (x : AugState) l2, StronglySorted Rlt (map a_time (l1 ++ x :: l2)) ->
  Forall (fun y => (a_time y < a_time x)%R) l1 /\ Forall (fun y => (a_time x < a_time y)%R) l2.
Proof.
  induction l1 as [|a t IH]; intros x l2 S; cbn in S; inversion S as [|? ? S1 S2]; subst.
  - split; [constructor|]. rewrite Forall_map in S2. exact S2.
  - destruct (IH x l2 S1) as [A B]. split; [|exact B]. constructor; [|exact A]. rewrite Forall_forall in S2. apply S2.
    apply in_map. apply in_app_iff. right. left. reflexivity.
Qed.
Lemma sorted_weak : forall l, StronglySorted Rlt l -> StronglySorted Rle l.
Proof.
  induction 1 as [|a l S IH F]; constructor; [exact IH|]. eapply Forall_impl; [|exact F]. cbn. intros. lra.
Qed.
Lemma own_time : forall e cam frame c, per_frame e cam = false -> In c (aug_at e (shared_key e)) ->
  StronglySorted Rlt (map a_time (aug_at e (shared_key e))) -> (a_time c < e_time e)%R ->
  exists a e', GetAugState e cam frame (a_time c) = OK (a, e') /\ pose_of c a /\ a_index a = a_index c.
Proof.
  intros e cam frame c H Hin S T. pose proof (sorted_weak _ S) as W.
  remember (aug_at e (shared_key e)) as l eqn:L.
  destruct (exists_last (l := l)) as [b [last E]]. { intros X. rewrite X in Hin. destruct Hin. }
  destruct (in_app_or b [last] c) as [I|[<-|[]]]; [rewrite <- E; exact Hin| |].
  - pose proof (sorted_mid b last [] ltac:(rewrite <- E; exact S)) as [F _]. rewrite Forall_forall in F. pose proof (F c I) as F'.
    destruct b as [|f b]; [destruct I|]. cbn in E.
    assert (Hf : (a_time f <= a_time c)%R).
    { destruct I as [<-|I]; [lra|]. rewrite E in W. cbn in W. inversion W as [|? ? _ W2]; subst. rewrite Forall_forall in W2.
      apply W2. apply in_map. apply in_app_iff. left. exact I. }
    destruct (lookup_inside e cam frame (a_time c) f (b ++ [last]) last H) as [a [e' [l1 [s0 [s1 [l2 [G [D [T0 [T1 [_ [_ [_ [J P]]]]]]]]]]]]]].
    { rewrite <- L. exact E. } { rewrite <- E. exact W. } { exact Hf. } { apply in_app_iff. right. left. reflexivity. } { exact F'. }
    assert (Q : c = s0).
    { rewrite <- L in D. rewrite D in Hin. apply in_app_iff in Hin. destruct Hin as [Q|[Q|Q]]; [| now symmetry |].
      - pose proof (sorted_mid l1 s0 (s1 :: l2) ltac:(rewrite <- D; exact S)) as [Z _]. rewrite Forall_forall in Z. specialize (Z c Q). lra.
      - replace (l1 ++ s0 :: s1 :: l2) with ((l1 ++ [s0]) ++ s1 :: l2) in D by (rewrite <- app_assoc; reflexivity).
        pose proof (sorted_mid (l1 ++ [s0]) s1 l2 ltac:(rewrite <- D; exact S)) as [_ Z]. rewrite Forall_forall in Z.
        destruct Q as [<-|Q]; [lra|]. specialize (Z c Q). lra. }
    subst s0. exists a, e'. split; [exact G|]. split; [apply P; reflexivity|exact J].
  - destruct (lookup_after e cam frame (a_time last) b last H) as [a [e' [G [_ [_ [_ [_ [J [P _]]]]]]]]].
    { rewrite <- L. exact E. } { rewrite <- E. exact W. } { lra. } { exact T. }
    exists a, e'. split; [exact G|]. split; [apply P; reflexivity|exact J].
Qed.

(** A second camera asking at the time of the primary camera's newest frame. *)
Lemma primary_fresh : forall e f e' cam g, reachable e -> p_aug (e_par e) = APrimary -> cam <> e_primary e ->
  Forall (fun a => (a_time a <= e_time e)%R) (aug_at e (e_primary e)) -> step e (OFrame (e_primary e) f) = OK e' ->
  GetAugState e' cam g (e_time e') = UB.
Proof.
  intros e f e' cam g Hr HA Hc O E. pose proof (reachable_inv e Hr) as I.
  assert (PF : per_frame e (e_primary e) = true) by (unfold per_frame; rewrite HA, Nat.eqb_refl; reflexivity).
  destruct (AugmentStateFrame_ok e (e_primary e) f (proj1 I)) as [e2 [E2 [_ [F [CF [_ H2]]]]]].
  cbn [step] in E. rewrite E in E2. injection E2 as <-.
  destruct F as [F0 [F1 _]]. cbn in F0, F1. destruct CF as [C0 _].
  assert (NT : ~ timed e) by (unfold timed; rewrite HA; intros [|]; discriminate).
  pose proof (step_stamps e (OFrame (e_primary e) f) e' (e_primary e) I Logic.I E NT) as S. cbv beta iota in S.
  rewrite PF, Nat.eqb_refl in S. cbn [andb] in S.
  assert (N : per_frame e' cam = false).
  { unfold per_frame. rewrite F0, C0, HA. cbn. apply Nat.eqb_neq. exact Hc. }
  assert (K : shared_key e' = e_primary e) by (unfold shared_key; rewrite F0, HA; exact C0).
  assert (W : exists X, Forall (fun a => (a_time a <= e_time e)%R) X /\ map a_time (aug_at e' (e_primary e)) = map a_time X ++ [e_time e]).
  { assert (M : map a_time (aug_at e' (e_primary e)) = map snd (stamps e' (e_primary e))) by (unfold stamps; rewrite map_map; reflexivity).
    rewrite M, S, map_map. change (fun x => snd (stamp x)) with a_time. unfold next_window.
    destruct (length _ <? e_max_len e); rewrite map_app; eexists; (split; [|reflexivity]); [exact O|].
    destruct (aug_at e (e_primary e)); [constructor|]. inversion O; assumption. }
  destruct W as [X [W1 W2]].
  destruct (exists_last (l := aug_at e' (e_primary e))) as [b [last L]].
  { intros Z. rewrite Z in W2. destruct X; discriminate. }
  assert (T : map a_time b = map a_time X /\ a_time last = e_time e).
  { rewrite L, map_app in W2. cbn [map] in W2. apply app_inj_tail in W2. exact W2. }
  destruct T as [T1 T2].
  apply (lookup_fresh e' cam g b last N); rewrite ?K; [exact L| |congruence].
  rewrite L. apply Forall_app. split; [|constructor; [lra|constructor]].
  assert (G : Forall (fun t => (t <= e_time e)%R) (map a_time b)) by (rewrite T1, Forall_map; exact W1).
  rewrite Forall_map in G. rewrite F1. exact G.
Qed.

Lemma demo_e_mode : forall a, p_aug (e_par (demo_e a false)) = a.
Proof. intros []; vm_compute; reflexivity. Qed.

(** Two clones of the primary camera, one second old and two seconds old. *)
Definition at_x (x : R) : BodyState := mkBody (mkV3 x 0 0) v0 v0 qid v0 v0 0.
Definition two_ops : list op :=
  [OInit 1 (at_x 10); OFrame 0 7; OInit 2 (at_x 20); OFrame 0 8; OInit 3 (at_x 30)].
Definition two_clones : ekf := match run (demo0 APrimary false) two_ops with OK e => e | UB => demo0 APrimary false end.
Lemma two_clones_reachable : reachable two_clones.
Proof.
  assert (H : respects (demo0 APrimary false) two_ops) by (repeat split; reflexivity).
  destruct (run_dims (demo_par APrimary false) demo_noise v0 0 two_ops demo_noise_arg H) as [e [E _]].
  exists (demo_par APrimary false), demo_noise, v0, 0%R, two_ops. split; [apply demo_noise_arg|]. split; [exact H|].
  unfold two_clones, demo0 in *. rewrite E. reflexivity.
Qed.
Lemma two_clones_times : map a_time (aug_at two_clones 0) = [1%R; 2%R] /\ e_time two_clones = 3%R /\
  p_aug (e_par two_clones) = APrimary /\ e_primary two_clones = 0 /\ map a_frame (aug_at two_clones 0) = [7; 8].
Proof. vm_compute. auto. Qed.
Lemma at_now_ex : forall e, reachable e -> p_aug (e_par e) = APrimary -> e_primary e = 0 ->
  Forall (fun a => (a_time a <= e_time e)%R) (aug_at e 0) ->
  exists e' cam frame, reachable e' /\ aug_at e' (shared_key e') <> [] /\ GetAugState e' cam frame (e_time e') = UB.
Proof.
  intros e Hr C D O.
  destruct (step_inv e (OFrame 0 9) (reachable_inv _ Hr) Logic.I) as [e' [E I']].
  assert (R' : reachable e') by (eapply reachable_step; [exact Hr| |exact E]; exact Logic.I).
  assert (U : GetAugState e' 1 0 (e_time e') = UB) by (apply (primary_fresh e 9); rewrite ?D; auto).
  exists e', 1, 0. split; [exact R'|]. split; [|exact U].
  intros Z. pose proof (step_stamps e (OFrame 0 9) e' 0 (reachable_inv _ Hr) Logic.I E) as S.
  destruct (AugmentStateFrame_ok e 0 9 (proj1 (reachable_inv _ Hr))) as [e2 [E2 [_ [F [CF _]]]]].
  cbn [step] in E. rewrite E in E2. injection E2 as <-. destruct F as [F0 _]. destruct CF as [C0 _]. cbn in F0.
  assert (K : shared_key e' = 0) by (unfold shared_key; rewrite F0, C, C0; exact D). rewrite K in Z.
  unfold stamps at 1 in S. rewrite Z in S. unfold per_frame in S. rewrite C, D in S. cbn [orb andb Nat.eqb] in S.
  assert (NT : ~ timed e) by (unfold timed; rewrite C; intros [|]; discriminate). specialize (S NT).
  unfold next_window in S. destruct (length _ <? _) in S; rewrite map_app in S; symmetry in S; apply app_eq_nil in S; destruct S; discriminate.
Qed.
Lemma at_now_refuted : exists e cam frame, reachable e /\ aug_at e (shared_key e) <> [] /\ GetAugState e cam frame (e_time e) = UB.
Proof.
  destruct two_clones_times as [A [B [C [D _]]]]. apply (at_now_ex two_clones two_clones_reachable C D).
  rewrite <- (Forall_map a_time (fun t => (t <= e_time two_clones)%R)), A, B. repeat constructor; lra.
Qed.
