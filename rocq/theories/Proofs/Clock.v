(** The clock, the local time and the one-way switches over whole histories. *)
From Coq Require Import Reals List Arith Bool Lia Lra.
From Verif Require Import Base.Res Base.Mat Base.RDec Base.LinAlg Base.Geom Base.AMap Base.RMat
  Model.TypeHelper Model.Types Model.Ekf Model.Updater Model.Ops
  Spec.Layout Spec.History Spec.Contract Spec.Same Proofs.Invariant Proofs.Named Proofs.Demo Proofs.Scalars.
Import ListNotations.
Open Scope nat_scope.

Lemma predict_stale : forall e t, (t < e_time e)%R -> PredictModel e t = OK e.
Proof. intros e t H. unfold PredictModel. now rewrite (Rltb_true _ _ H). Qed.

Lemma predict_time : forall e t, reachable e -> (e_time e <= t)%R ->
  exists e', PredictModel e t = OK e' /\ e_time e' = t.
Proof.
  intros e t Hr H. pose proof (reachable_inv e Hr) as I. destruct (step_inv e (OPredict t) I Logic.I) as [e' [E _]].
  exists e'. split; [exact E|]. pose proof (step_frame' e (OPredict t) e' I Logic.I E) as F. cbn in F.
  rewrite (Rltb_ff _ _ H) in F. unfold frame' in F. cbn in F. apply F.
Qed.

(** Induction over histories. *)
Lemma run_ind : forall (P : ekf -> Prop) (ok : op -> Prop) l e e',
  (forall e o e', inv e -> contract e o -> step e o = OK e' -> ok o -> P e -> P e') ->
  inv e -> respects e l -> Forall ok l -> run e l = OK e' -> P e -> P e' /\ inv e'.
Proof.
  intros P ok l. induction l as [|o l IH]; intros e e' Hs I Hr Ho E HP; cbn [run respects] in *.
  - injection E as <-. auto.
  - destruct Hr as [C Hr]. inversion Ho; subst. destruct (step_inv e o I C) as [e1 [E1 I1]].
    rewrite E1 in E. cbn [bind] in E. apply (IH e1 e'); eauto.
Qed.

Lemma step_time : forall e o e', inv e -> contract e o -> step e o = OK e' -> not_init o ->
  e_time_init e = true -> (e_time e <= e_time e')%R /\ e_time_init e' = true.
Proof.
  intros e o e' I C E N T. pose proof (step_frame' e o e' I C E) as F.
  destruct o; try (destruct N; fail); unfold frame' in F;
    try (subst e'; cbn; split; [lra|exact T]);
    try (destruct F as [_ [F1 [_ [F2 _]]]]; rewrite F1, F2; split; [lra|exact T]).
  - destruct F as [_ [F1 [_ [F2 _]]]]. rewrite F1, F2. cbn. split; [|exact T].
    destruct (Rltb t (e_time e)) eqn:X; [lra|]. apply Rltb_false in X. exact X.
  - subst e'. unfold CalculateLocalTime. rewrite T. cbn. split; [lra|exact T].
  - subst e'. unfold AttemptGpsInitialization.
    destruct (Nat.leb 4 _); [destruct (align _ _) as [[? ?]|]|]; cbn; (split; [lra|exact T]).
Qed.

Lemma run_time : forall e l e', reachable e -> respects e l -> run e l = OK e' ->
  Forall not_init l -> e_time_init e = true -> (e_time e <= e_time e')%R.
Proof.
  intros e l e' Hr Hl E N T.
  destruct (run_ind (fun x => (e_time e <= e_time x)%R /\ e_time_init x = true) not_init l e e') as [[H _] _];
    auto using reachable_inv.
  - intros e1 o e2 I1 C1 E1 O1 [H1 H2]. destruct (step_time e1 o e2 I1 C1 E1 O1 H2) as [H3 H4]. split; [lra|exact H4].
  - split; [lra|exact T].
Qed.

(** *** Local time *)
Lemma step_ref : forall e o e', inv e -> contract e o -> step e o = OK e' ->
  e_time_init e = true -> e_ref_time e' = e_ref_time e /\ e_time_init e' = true.
Proof.
  intros e o e' I C E T. pose proof (step_frame' e o e' I C E) as F.
  destruct o; unfold frame' in F;
    try (subst e'; cbn; split; [reflexivity|first [exact T|reflexivity]]);
    try (destruct F as [_ [_ [F1 [F2 _]]]]; rewrite F1, F2; split; [reflexivity|exact T]).
  - subst e'. unfold CalculateLocalTime. rewrite T. auto.
  - subst e'. unfold AttemptGpsInitialization.
    destruct (Nat.leb 4 _); [destruct (align _ _) as [[? ?]|]|]; cbn; auto.
Qed.

Lemma local_time : forall e t1 x1 e1 l e2 t2 x2 e3, reachable e ->
  CalculateLocalTime e t1 = (x1, e1) -> respects e1 l -> run e1 l = OK e2 ->
  CalculateLocalTime e2 t2 = (x2, e3) ->
  (x2 - x1 = t2 - t1)%R /\ e3 = e2 /\ (e_time_init e = false -> x1 = 0%R) /\ (e_time_init e = true -> e1 = e).
Proof.
  intros e t1 x1 e1 l e2 t2 x2 e3 Hr H1 Hl E H2. pose proof (reachable_inv e Hr) as I.
  assert (I1 : inv e1).
  { destruct (step_inv e (OLocalTime t1) I Logic.I) as [e' [E' I']]. cbn in E'. rewrite H1 in E'. injection E' as <-. exact I'. }
  assert (T1 : e_time_init e1 = true /\ (x1 = t1 - e_ref_time e1)%R /\ (e_time_init e = false -> x1 = 0%R) /\
    (e_time_init e = true -> e1 = e)).
  { unfold CalculateLocalTime in H1. destruct (e_time_init e) eqn:T; injection H1 as <- <-; cbn.
    - split; [exact T|]. split; [reflexivity|]. split; [discriminate|reflexivity].
    - split; [reflexivity|]. split; [ring|]. split; [reflexivity|discriminate]. }
  destruct T1 as [T1 [X1 [Z1 Z2]]].
  destruct (run_ind (fun x => e_ref_time x = e_ref_time e1 /\ e_time_init x = true) (fun _ => True) l e1 e2) as [[H _] _]; auto.
  - intros a o b Ia Ca Ea _ [Ha Hb]. destruct (step_ref a o b Ia Ca Ea Hb) as [H3 H4]. split; [congruence|exact H4].
  - apply Forall_forall. auto.
  - assert (T2 : e_time_init e2 = true).
    { destruct (run_ind (fun x => e_ref_time x = e_ref_time e1 /\ e_time_init x = true) (fun _ => True) l e1 e2) as [[_ X] _]; auto.
      - intros a o b Ia Ca Ea _ [Ha Hb]. destruct (step_ref a o b Ia Ca Ea Hb) as [H3 H4]. split; [congruence|exact H4].
      - apply Forall_forall. auto. }
    unfold CalculateLocalTime in H2. rewrite T2 in H2. injection H2 as <- <-.
    split; [rewrite H, X1; ring|]. auto.
Qed.

(** *** Switches *)
Lemma step_latch : forall e o e', inv e -> contract e o -> step e o = OK e' ->
  (e_gravity e = true -> e_gravity e' = true) /\ (e_lla_init e = true -> e_lla_init e' = true).
Proof.
  intros e o e' I C E. pose proof (step_frame' e o e' I C E) as F.
  destruct o; unfold frame' in F;
    try (subst e'; cbn; auto; fail);
    try (destruct F as [_ [_ [_ [_ [_ [_ [F1 [_ [_ [_ [_ [_ [F2 _]]]]]]]]]]]]]; rewrite F1, F2; auto; fail).
  - subst e'. unfold CalculateLocalTime. destruct (e_time_init e); cbn; auto.
  - subst e'. unfold AttemptGpsInitialization.
    destruct (Nat.leb 4 _); [destruct (align _ _) as [[? ?]|]|]; cbn; auto.
Qed.

Lemma run_latch : forall e l e', reachable e -> respects e l -> run e l = OK e' ->
  (e_gravity e = true -> e_gravity e' = true) /\ (e_lla_init e = true -> e_lla_init e' = true).
Proof.
  intros e l e' Hr Hl E.
  destruct (run_ind (fun x => (e_gravity e = true -> e_gravity x = true) /\ (e_lla_init e = true -> e_lla_init x = true))
    (fun _ => True) l e e') as [H _]; auto using reachable_inv.
  - intros a o b Ia Ca Ea _ [Ha Hb]. destruct (step_latch a o b Ia Ca Ea) as [H3 H4]. auto.
  - apply Forall_forall. auto.
Qed.

Lemma step_gps : forall e o e', inv e -> contract e o -> step e o = OK e' ->
  e_gps_time e' = e_gps_time e ++ sample_time o /\
  (not_set_gps o -> e_lla_init e = false -> e_lla_init e' = true -> 4 <= length (e_gps_time e')).
Proof.
  intros e o e' I C E. pose proof (step_frame' e o e' I C E) as F.
  destruct o; unfold frame' in F; cbn [sample_time]; rewrite ?app_nil_r;
    try (subst e'; cbn; split; [reflexivity|]; congruence);
    try (destruct F as [_ [_ [_ [_ [_ [_ [F1 [_ [_ [F2 _]]]]]]]]]]; rewrite F1, F2; split; [reflexivity|]; cbn; congruence).
  - subst e'. cbn. split; [reflexivity|]. intros [].
  - subst e'. unfold CalculateLocalTime. destruct (e_time_init e); cbn; split; try reflexivity; congruence.
  - subst e'. unfold AttemptGpsInitialization. cbn [e_gps_time with_gps_samples].
    destruct (Nat.leb 4 _) eqn:L.
    + apply Nat.leb_le in L. destruct (align _ _) as [[? ?]|]; cbn; (split; [reflexivity|auto]).
    + cbn. split; [reflexivity|congruence].
Qed.

Lemma run_gps_times : forall l e e', inv e -> respects e l -> run e l = OK e' ->
  e_gps_time e' = e_gps_time e ++ gps_times l.
Proof.
  induction l as [|o l IH]; intros e e' I Hr E; cbn [run respects] in *.
  - injection E as <-. now rewrite app_nil_r.
  - destruct Hr as [C Hr]. destruct (step_inv e o I C) as [e1 [E1 I1]]. rewrite E1 in E. cbn [bind] in E.
    rewrite (IH e1 e' I1 (Hr _ E1) E). rewrite (proj1 (step_gps e o e1 I C E1)). unfold gps_times. cbn [flat_map].
    now rewrite app_assoc.
Qed.

Lemma run_four : forall l e e', inv e -> respects e l -> run e l = OK e' -> Forall not_set_gps l ->
  e_lla_init e = false -> e_lla_init e' = true -> 4 <= length (e_gps_time e').
Proof.
  induction l as [|o l IH]; intros e e' I Hr E N L1 L2; cbn [run respects] in *.
  - injection E as <-. congruence.
  - destruct Hr as [C Hr]. destruct (step_inv e o I C) as [e1 [E1 I1]]. rewrite E1 in E. cbn [bind] in E.
    inversion N; subst. destruct (e_lla_init e1) eqn:L.
    + pose proof (proj2 (step_gps e o e1 I C E1) H1 L1 L) as H.
      rewrite (run_gps_times l e1 e' I1 (Hr _ E1) E), app_length. lia.
    + apply (IH e1 e'); auto.
Qed.

Lemma four_samples : forall p q pe a l e, noise_arg q -> respects (EKF_init p q pe a) l ->
  run (EKF_init p q pe a) l = OK e ->
  e_gps_time e = gps_times l /\
  (p_gps_init p <> GConstant -> Forall not_set_gps l -> e_lla_init e = true -> 4 <= length (gps_times l)).
Proof.
  intros p q pe a l e Hq Hr E. pose proof (init_inv p q pe a Hq) as I.
  pose proof (run_gps_times l _ e I Hr E) as H. cbn in H. split; [exact H|].
  intros Hp Hn HL. rewrite <- H. eapply (run_four l); eauto.
  cbn. destruct (p_gps_init p); congruence.
Qed.
