(** Clones at rest: made at the body pose, found at the body pose. *)
From Coq Require Import Reals List Arith Bool Lia Lra.
From Verif Require Import Base.Res Base.Mat Base.RDec Base.RSum Base.LinAlg Base.Geom Base.AMap Base.RMat
  Model.TypeHelper Model.Types Model.MathHelperMat Model.MathHelper Model.QR Model.Ekf Model.Updater
  Spec.History Spec.Same Spec.Lookup Spec.AtRest
  Proofs.Update Proofs.Refresh Proofs.Wf Proofs.Same Proofs.Lookup Proofs.Follows Proofs.ZeroStep.
Import ListNotations.
Open Scope nat_scope.

(** The frames stored for a camera. *)
Definition frames_at (e : ekf) (k : nat) : list nat := map a_frame (aug_at e k).

Lemma frames_bare : forall s s' k, bare s' = bare s ->
  map a_frame (mget [] k (s_aug s')) = map a_frame (mget [] k (s_aug s)).
Proof.
  intros s s' k H. destruct (bare_parts _ _ H) as [_ [_ [_ [_ [_ X]]]]]. pose proof (mfind_bare _ _ k _ _ X) as Y.
  unfold mget. destruct (mfind k (s_aug s')) as [l'|], (mfind k (s_aug s)) as [l|]; cbn in Y; try discriminate; [|reflexivity].
  injection Y as Y. rewrite <- !(map_map bare_aug a_frame) with (g := a_frame) || idtac.
  assert (G : forall l, map a_frame l = map a_frame (map bare_aug l)) by (intros m; rewrite map_map; reflexivity).
  rewrite (G l'), (G l), Y. reflexivity.
Qed.
Lemma frames_refresh : forall e e' k, RefreshIndices e = OK e' -> frames_at e' k = frames_at e k.
Proof. intros e e' k H. apply refresh_bare in H. apply frames_bare. apply H. Qed.

Lemma frame_quiet : forall p q e cam new e', rests p q (e_state e) -> AugmentStateFrame e cam new = OK e' ->
  quiet p q e e' /\ (per_frame e cam = true -> forall f, In f (frames_after e cam new) -> In f (frames_at e' cam)).
Proof.
  intros p q e cam new e' R H. unfold AugmentStateFrame in H. cbv zeta in H.
  set (e0 := with_frame_recv e true) in *. change (e_par e0) with (e_par e) in H. change (e_primary e0) with (e_primary e) in H.
  assert (Q0 : quiet p q e e0) by (apply quiet_same; [reflexivity|repeat split|exact R]).
  fold (per_frame e cam) in H. destruct (per_frame e cam); [|injection H as <-; split; [exact Q0|discriminate]].
  set (e1 := set_aug e0 cam (aug_at e0 cam ++ [clone_of e0 new])) in *.
  assert (Q1 : quiet p q e0 e1).
  { apply quiet_set; [apply Q0|]. intros a Ha. apply in_app_or in Ha. destruct Ha as [Ha|[<-|[]]].
    - eapply rests_at; [apply Q0|exact Ha].
    - apply (quiet_body p q e0). apply Q0. }
  assert (A1 : aug_at e1 cam = aug_at e cam ++ [clone_of e0 new]).
  { unfold e1, set_aug, aug_at. cbn [with_state e_state state_with_aug s_aug]. unfold mget at 1. rewrite mfind_mset_eq. reflexivity. }
  opn H. opn H. opn H. opn H. injection H as <-.
  assert (Qx : quiet p q e1 x /\ (frames_at x cam = frames_at e1 cam /\ (length (aug_at e1 cam) <= e_max_len e) \/
               frames_at x cam = tl (frames_at e1 cam) /\ ~ (length (aug_at e1 cam) <= e_max_len e))).
  { change (e_max_len e1) with (e_max_len e) in B. destruct (Nat.leb_spec (length (aug_at e1 cam)) (e_max_len e)) as [L|L].
    - injection B as <-. split; [apply quiet_same; [reflexivity|repeat split|apply Q1]|left; split; [reflexivity|exact L]].
    - opn B. opn B. injection B as <-. split.
      + eapply quiet_trans; [apply quiet_set with (k := cam) (l := erase 0 (aug_at e1 cam)); [apply Q1|]|].
        * intros a Ha. apply erase_in in Ha. eapply rests_at; [apply Q1|exact Ha].
        * apply quiet_same; [reflexivity|repeat split|]. apply quiet_set; [apply Q1|].
          intros a Ha. apply erase_in in Ha. eapply rests_at; [apply Q1|exact Ha].
      + right. split; [|lia]. unfold frames_at, aug_at at 1, set_aug. cbn [with_cov with_state e_state state_with_aug s_aug].
        unfold mget at 1. rewrite mfind_mset_eq. unfold erase. cbn [firstn app]. rewrite <- map_tl || idtac.
        destruct (aug_at e1 cam); reflexivity. }
  destruct Qx as [Qx W].
  pose proof (quiet_refresh p q x x0 (proj1 Qx) B0) as Qr.
  split.
  - eapply quiet_trans; [exact Q0|]. eapply quiet_trans; [exact Q1|]. eapply quiet_trans; [exact Qx|].
    eapply quiet_trans; [exact Qr|]. apply quiet_same; [reflexivity|repeat split|apply Qr].
  - intros _ f Hf. change (frames_at (with_cov x0 x2) cam) with (frames_at x0 cam). rewrite (frames_refresh _ _ cam B0).
    unfold frames_at in W. rewrite A1 in W. rewrite map_app, app_length in W. cbn [map length] in W.
    assert (N : aug_at x0 cam <> []) by (intros X; rewrite X in B1; discriminate).
    assert (N' : frames_at x cam <> []).
    { rewrite <- (frames_refresh _ _ cam B0). intros X. apply map_eq_nil in X. contradiction. }
    unfold frames_at in N' |- *. unfold frames_after in Hf.
    destruct W as [[W L]|[W L]]; rewrite W in N' |- *.
    + rewrite (proj2 (Nat.ltb_lt _ _)) in Hf by lia. apply in_or_app. destruct Hf as [Hf|Hf]; [right; left; exact Hf|left; exact Hf].
    + destruct (Nat.ltb_spec (length (aug_at e cam)) (e_max_len e)) as [X|X]; [lia|].
      destruct (aug_at e cam) as [|a l] eqn:EA; cbn [map app tl] in *; [congruence|].
      apply in_or_app. destruct Hf as [Hf|Hf]; [right; left; exact Hf|left; exact Hf].
Qed.

Lemma slerp_self : forall q t, qnorm2 q = 1%R -> qslerp q t q = q.
Proof.
  intros q t H. unfold qslerp. replace (qdot q q) with 1%R by (rewrite <- H; reflexivity).
  rewrite Rabs_R1. assert (E : Rleb (1 - dbl_eps) 1 = true).
  { apply Rleb_spec. unfold dbl_eps. assert (0 < / 2 ^ 52)%R by (apply Rinv_0_lt_compat; apply pow_lt; lra). lra. }
  rewrite E. rewrite (proj2 (Rltb_false 1 0)) by lra. destruct q as [w x y z]. cbn. f_equal; ring.
Qed.

Lemma find_frame_in : forall l f acc, find_frame l f acc = acc \/ In (find_frame l f acc) l.
Proof.
  induction l as [|s t IH]; intros f acc; cbn [find_frame]; [auto|].
  destruct (Nat.eqb (a_frame s) f).
  - destruct (IH f s) as [E|E]; [rewrite E|]; right; cbn; auto.
  - destruct (IH f acc) as [E|E]; [left; exact E|right; right; exact E].
Qed.
Lemma find_frame_hit : forall l f acc, In f (map a_frame l) -> In (find_frame l f acc) l.
Proof.
  induction l as [|s t IH]; intros f acc H; [destruct H|]. cbn [find_frame map] in *.
  destruct (Nat.eqb_spec (a_frame s) f) as [E|E].
  - destruct (find_frame_in t f s) as [X|X]; [rewrite X; left; reflexivity|right; exact X].
  - destruct H as [H|H]; [contradiction|]. right. apply IH. exact H.
Qed.

Lemma interval_in : forall l time acc, find_interval l time acc = acc \/
  exists s0 s1, In s0 l /\ In s1 l /\ find_interval l time acc =
    (rdiv (time - a_time s0) (a_time s1 - a_time s0), s0, s1).
Proof.
  induction l as [|s0 t IH]; intros time acc; [auto|]. destruct t as [|s1 t]; [auto|].
  change (find_interval (s0 :: s1 :: t) time acc) with (find_interval (s1 :: t) time
    (if Rleb (a_time s0) time && Rleb time (a_time s1) then (rdiv (time - a_time s0) (a_time s1 - a_time s0), s0, s1) else acc)).
  destruct (IH time (if Rleb (a_time s0) time && Rleb time (a_time s1)
     then (rdiv (time - a_time s0) (a_time s1 - a_time s0), s0, s1) else acc)) as [E|[x [y [X [Y E]]]]].
  - rewrite E. destruct (_ && _); [|auto]. right. exists s0, s1. cbn. auto.
  - rewrite E. right. exists x, y. cbn in *. intuition.
Qed.
Lemma interval_found : forall l time acc first last, (a_time first <= time)%R -> back (first :: l) = OK last ->
  (time < a_time last)%R -> exists s0 s1, In s0 (first :: l) /\ In s1 (first :: l) /\ find_interval (first :: l) time acc =
    (rdiv (time - a_time s0) (a_time s1 - a_time s0), s0, s1).
Proof.
  induction l as [|s1 t IH]; intros time acc first last H1 H2 H3.
  - cbn in H2. injection H2 as <-. lra.
  - change (find_interval (first :: s1 :: t) time acc) with (find_interval (s1 :: t) time
      (if Rleb (a_time first) time && Rleb time (a_time s1) then (rdiv (time - a_time first) (a_time s1 - a_time first), first, s1) else acc)).
    change (back (first :: s1 :: t)) with (back (s1 :: t)) in H2.
    destruct (Rlt_le_dec time (a_time s1)) as [L|L].
    + rewrite (proj2 (Rleb_spec (a_time first) time)) by lra. rewrite (proj2 (Rleb_spec time (a_time s1))) by lra. cbn [andb].
      destruct (interval_in (s1 :: t) time (rdiv (time - a_time first) (a_time s1 - a_time first), first, s1)) as [E|[x [y [X [Y E]]]]];
        rewrite E.
      * exists first, s1. cbn. auto.
      * exists x, y. cbn in *. intuition.
    + destruct (IH time (if Rleb (a_time first) time && Rleb time (a_time s1)
        then (rdiv (time - a_time first) (a_time s1 - a_time first), first, s1) else acc) s1 last L H2 H3) as [x [y [X [Y E]]]].
      exists x, y. rewrite E. cbn in *. intuition.
Qed.

Lemma back_in : forall A (l : list A) x, back l = OK x -> In x l.
Proof.
  induction l as [|a t IH]; intros x H; [discriminate|]. destruct t as [|b t]; [injection H as <-; left; reflexivity|].
  right. apply IH. exact H.
Qed.
Lemma aug_touch_frames : forall e k j, frames_at (touch_aug e k) j = frames_at e j.
Proof. intros. unfold frames_at. rewrite aug_touch. reflexivity. Qed.

(** A lookup at rest finds the pose of the body and disturbs nothing. *)
Lemma lookup_quiet : forall p q e cam frame time a e', qnorm2 q = 1%R -> rests p q (e_state e) ->
  (per_frame e cam = true -> In frame (frames_at e cam)) ->
  GetAugState e cam frame time = OK (a, e') ->
  posed p q a /\ quiet p q e e' /\ (forall k, frames_at e' k = frames_at e k) /\ exists k, e' = touch_aug e k.
Proof.
  intros p q e cam frame time a e' U R F H. unfold GetAugState in H. fold (per_frame e cam) in H.
  destruct (per_frame e cam).
  - injection H as <- <-. split; [|split; [apply quiet_touch; exact R|split; [intros; apply aug_touch_frames|eauto]]].
    assert (X : In (find_frame (aug_at e cam) frame default_aug) (aug_at e cam)) by (apply find_frame_hit; apply F; reflexivity).
    rewrite aug_touch. eapply rests_at; eauto.
  - cbv zeta in H. set (key := match p_aug (e_par e) with APrimary => e_primary e | _ => 0 end) in *.
    pose proof (quiet_touch p q e key R) as Q. rewrite aug_touch in H.
    change (e_time (touch_aug e key)) with (e_time e) in H.
    change (s_body (e_state (touch_aug e key))) with (s_body (e_state e)) in H.
    destruct (aug_at e key) as [|first l] eqn:EL; [discriminate|].
    opn H. cbn in B. injection B as <-. opn H. rename x into last. rename B into EB.
    assert (P : forall b, In b (first :: l) -> posed p q b) by (intros b Hb; rewrite <- EL in Hb; eapply rests_at; eauto).
    assert (G : forall alpha s0 s1, posed p q s0 -> (posed p q s1 \/ alpha = 0%R) ->
      posed p q (mkAug 0 time (vadd (a_pos s0) (vscale alpha (vsub (a_pos s1) (a_pos s0)))) (qslerp (a_ang s0) alpha (a_ang s1)) (a_index s0) alpha)).
    { intros alpha s0 s1 [P1 P2] [[P3 P4]| ->]; split; cbn [a_pos a_ang]; rewrite ?P1, ?P2, ?P3, ?P4.
      - destruct p; unfold vadd, vscale, vsub; cbn; f_equal; ring.
      - apply slerp_self; exact U.
      - destruct p; unfold vadd, vscale, vsub; cbn; f_equal; ring.
      - apply slerp_0. }
    assert (T : (forall k, frames_at (touch_aug e key) k = frames_at e k) /\ exists k, touch_aug e key = touch_aug e k)
      by (split; [intros; apply aug_touch_frames|eauto]).
    destruct (Rltb time (a_time first)) eqn:E1.
    + cbn [bind] in H. injection H as <- <-. split; [|split; [exact Q|exact T]]. apply (G 0%R first default_aug); [apply P; left; reflexivity|right; reflexivity].
    + destruct (Rltb time (a_time last)) eqn:E2.
      * destruct (interval_found l time (OK 0%R, default_aug, default_aug) first last) as [s0 [s1 [I0 [I1 E]]]].
        { apply Rltb_false in E1. exact E1. } { exact EB. } { apply Rltb_spec in E2. exact E2. }
        rewrite E in H. opn H. injection H as <- <-. split; [|split; [exact Q|exact T]]. apply (G _ s0 s1); [apply P; exact I0|left; apply P; exact I1].
      * opn H. injection H as <- <-. split; [|split; [exact Q|exact T]]. apply (G _ last (mkAug 0 0 (b_pos (s_body (e_state e))) (b_ang (s_body (e_state e))) 0 0)); [apply P; apply back_in; exact EB|left].
        destruct R as [R1 [_ [_ [R2 _]]]]. split; assumption.
Qed.

(** Reading a known sensor changes nothing. *)
Lemma touch_known : forall A (d : A) k m x, mfind k m = Some x -> mtouch d k m = m /\ mget d k m = x.
Proof. intros A d k m x H. unfold mtouch, mget. rewrite H. auto. Qed.
Lemma with_state_id : forall e, with_state e (e_state e) = e. Proof. destruct e; reflexivity. Qed.
Lemma get_imu_known : forall e id s, mfind id (s_imu (e_state e)) = Some s -> GetImuState e id = (s, e).
Proof.
  intros e id s H. unfold GetImuState. destruct (touch_known _ default_imu _ _ _ H) as [-> ->]. f_equal.
  transitivity (with_state e (e_state e)); [f_equal; destruct (e_state e); reflexivity|apply with_state_id].
Qed.
Lemma get_gps_known : forall e id s, mfind id (s_gps (e_state e)) = Some s -> GetGpsState e id = (s, e).
Proof.
  intros e id s H. unfold GetGpsState. destruct (touch_known _ default_gps _ _ _ H) as [-> ->]. f_equal.
  transitivity (with_state e (e_state e)); [f_equal; destruct (e_state e); reflexivity|apply with_state_id].
Qed.
Lemma get_cam_known : forall e id s, mfind id (s_cam (e_state e)) = Some s -> GetCamState e id = (s, e).
Proof.
  intros e id s H. unfold GetCamState. destruct (touch_known _ default_cam _ _ _ H) as [-> ->]. f_equal.
  transitivity (with_state e (e_state e)); [f_equal; destruct (e_state e); reflexivity|apply with_state_id].
Qed.

(** Sensors stay known. *)
Lemma sbc_imu : forall s s' id x, same_but_clones s s' -> mfind id (s_imu s) = Some x ->
  exists y, mfind id (s_imu s') = Some y /\ bare_imu y = bare_imu x.
Proof.
  intros s s' id x H F. pose proof (f_equal s_imu H) as X. cbn in X. pose proof (mfind_bare _ _ id _ _ X) as Y. rewrite F in Y.
  destruct (mfind id (s_imu s')) as [y|]; [|discriminate]. exists y. split; [reflexivity|].
  exact (f_equal (fun o => match o with Some z => z | None => bare_imu x end) Y).
Qed.
Lemma sbc_gps : forall s s' id x, same_but_clones s s' -> mfind id (s_gps s) = Some x ->
  exists y, mfind id (s_gps s') = Some y /\ bare_gps y = bare_gps x.
Proof.
  intros s s' id x H F. pose proof (f_equal s_gps H) as X. cbn in X. pose proof (mfind_bare _ _ id _ _ X) as Y. rewrite F in Y.
  destruct (mfind id (s_gps s')) as [y|]; [|discriminate]. exists y. split; [reflexivity|].
  exact (f_equal (fun o => match o with Some z => z | None => bare_gps x end) Y).
Qed.
Lemma sbc_cam : forall s s' id x, same_but_clones s s' -> mfind id (s_cam s) = Some x ->
  exists y, mfind id (s_cam s') = Some y /\ bare_cam y = bare_cam x.
Proof.
  intros s s' id x H F. pose proof (f_equal s_cam H) as X. cbn in X. pose proof (mfind_bare _ _ id _ _ X) as Y. rewrite F in Y.
  destruct (mfind id (s_cam s')) as [y|]; [|discriminate]. exists y. split; [reflexivity|].
  exact (f_equal (fun o => match o with Some z => z | None => bare_cam x end) Y).
Qed.
Lemma sbc_fid : forall s s' id x, same_but_clones s s' -> mfind id (s_fid s) = Some x ->
  exists y, mfind id (s_fid s') = Some y /\ bare_fid y = bare_fid x.
Proof.
  intros s s' id x H F. pose proof (f_equal s_fid H) as X. cbn in X. pose proof (mfind_bare _ _ id _ _ X) as Y. rewrite F in Y.
  destruct (mfind id (s_fid s')) as [y|]; [|discriminate]. exists y. split; [reflexivity|].
  exact (f_equal (fun o => match o with Some z => z | None => bare_fid x end) Y).
Qed.
