(** The exact contents of the windows, also when the maximum length changes. *)
From Coq Require Import Reals List Arith Bool Lia Lra Sorted.
From Verif Require Import Base.Res Base.Mat Base.RDec Base.LinAlg Base.Geom Base.AMap Base.RMat
  Model.TypeHelper Model.Types Model.MathHelperMat Model.Ekf Model.Updater Model.Ops
  Spec.Layout Spec.History Spec.Contract Spec.Correct Spec.Named Spec.Same Spec.WindowSize
  Proofs.Refresh Proofs.Wf Proofs.Register Proofs.Augment Proofs.Invariant Proofs.Named Proofs.Same Proofs.Update
  Proofs.Scalars Proofs.Clock Proofs.Effects Proofs.Windows Proofs.ZeroStep Proofs.Demo Proofs.DemoFilter Proofs.RestLookup Proofs.SteadyFrames Proofs.RegRefute Proofs.Finals.
Import ListNotations.
Open Scope nat_scope.

Lemma primary_stays : forall e o e', step e o = OK e' -> e_primary e <> 0 -> e_primary e' = e_primary e.
Proof.
  intros e o e' E N. destruct o; cbn [step] in E; try (injection E as <-; reflexivity).
  - unfold RegisterIMU in E. destruct (mfind _ _); [injection E as <-; reflexivity|]. opn E.
    destruct (refresh_scalars _ _ E) as [_ [P _]]. rewrite P.
    assert (X : e_primary x = e_primary e) by (destruct (_ || _); [opn B; opn B|]; injection B as <-; reflexivity).
    rewrite <- X. destruct (i_ext st), (i_int st); reflexivity.
  - unfold RegisterGPS in E. destruct (mfind _ _); [injection E as <-; reflexivity|]. opn E.
    destruct (refresh_scalars _ _ E) as [_ [P _]]. rewrite P. destruct (g_ext st); [opn B; opn B|]; injection B as <-; reflexivity.
  - unfold RegisterCamera in E. destruct (mfind _ _); [injection E as <-; reflexivity|]. opn E. cbv zeta in E.
    cbn [with_periods e_primary] in E. apply Nat.eqb_neq in N. rewrite N in E. opn E.
    destruct (refresh_scalars _ _ E) as [_ [P _]]. rewrite P. destruct (c_ext st); [opn B0; opn B0|]; injection B0 as <-; reflexivity.
  - unfold RegisterFiducial in E. destruct (mfind _ _); [injection E as <-; reflexivity|]. opn E.
    destruct (refresh_scalars _ _ E) as [_ [P _]]. rewrite P. destruct (f_ext st); [opn B; opn B|]; injection B as <-; reflexivity.
  - destruct (steady_predict 0 _ _ _ E) as [_ [P _]]. exact P.
  - unfold AugmentStateFrame in E. cbv zeta in E. destruct (_ || _); [|injection E as <-; reflexivity].
    opn E. opn E. opn E. opn E. injection E as <-. cbn [with_cov e_primary].
    destruct (refresh_scalars _ _ B0) as [_ [P _]]. rewrite P.
    destruct (Nat.leb _ _); [injection B as <-; reflexivity|]. opn B. opn B. injection B as <-. reflexivity.
  - destruct (augment_scalars _ _ E) as [_ [P _]]. exact P.
  - destruct (refresh_scalars _ _ E) as [_ [P _]]. exact P.
  - destruct (steady_kalman 0 _ _ _ _ _ E) as [_ [P _]]. exact P.
  - opn E. destruct x as [s e1]. injection E as <-. destruct (steady_aug_get 0 _ _ _ _ _ _ B) as [_ [P _]]. exact P.
  - injection E as <-. unfold CalculateLocalTime. destruct (e_time_init e); reflexivity.
  - injection E as <-. unfold AttemptGpsInitialization. destruct (Nat.leb 4 _); [destruct (align _ _) as [[? ?]|]|]; reflexivity.
Qed.
Lemma cloned_per_frame : forall e cam, cloned_each e cam -> per_frame e cam = true /\ ~ timed e.
Proof.
  intros e cam [H|[H [P _]]]; unfold per_frame, timed; rewrite H; (split; [|intros [X|X]; discriminate]); [reflexivity|].
  rewrite P, Nat.eqb_refl. reflexivity.
Qed.
Lemma cloned_stays : forall e o e' cam, inv e -> contract e o -> step e o = OK e' -> cloned_each e cam -> cloned_each e' cam.
Proof.
  intros e o e' cam I C E H. destruct (step_len e o e' I C E) as [_ P]. unfold cloned_each in *. rewrite P.
  destruct H as [H|[H [Q N]]]; [left; exact H|right]. split; [exact H|]. split; [|exact N].
  rewrite (primary_stays e o e' E); congruence.
Qed.

Lemma last_grow : forall (n f : nat) base, n <= length base -> last_n (S n) (base ++ [f]) = last_n n base ++ [f].
Proof.
  intros n f base H. unfold last_n. rewrite app_length. cbn [length].
  replace (length base + 1 - S n) with (length base - n) by lia. rewrite skipn_app.
  replace (length base - n - length base) with 0 by lia. reflexivity.
Qed.
Lemma tl_skipn : forall (k : nat) (l : list nat), tl (skipn k l) = skipn (S k) l.
Proof. induction k as [|k IH]; intros [|x l]; try reflexivity. cbn [skipn]. rewrite IH. destruct l; reflexivity. Qed.
Lemma last_slide : forall (n f : nat) base, 1 <= n <= length base -> tl (last_n n base) ++ [f] = last_n n (base ++ [f]).
Proof.
  intros n f base H. unfold last_n. rewrite app_length, tl_skipn. cbn [length].
  replace (length base + 1 - n) with (S (length base - n)) by lia. rewrite skipn_app.
  replace (S (length base - n) - length base) with 0 by lia. reflexivity.
Qed.
Lemma last_length : forall (n : nat) (l : list nat), n <= length l -> length (last_n n l) = n.
Proof. intros n l H. unfold last_n. rewrite skipn_length. lia. Qed.
Lemma last_all : forall (l : list nat), last_n (length l) l = l.
Proof. intros l. unfold last_n. rewrite Nat.sub_diag. reflexivity. Qed.

Lemma run_size : forall l e e' cam base n, inv e -> respects e l -> run e l = OK e' -> cloned_each e cam ->
  n <= length base -> map a_frame (aug_at e cam) = last_n n base ->
  window_size cam (e_max_len e) n l <= length (base ++ frames_of cam l) /\
  map a_frame (aug_at e' cam) = last_n (window_size cam (e_max_len e) n l) (base ++ frames_of cam l).
Proof.
  induction l as [|o l IH]; intros e e' cam base n I Hr E HC Hn Hs; cbn [run respects] in *.
  - injection E as <-. rewrite app_nil_r. auto.
  - destruct Hr as [C Hr]. destruct (step_inv e o I C) as [e1 [E1 I1]]. rewrite E1 in E. cbn [bind] in E. specialize (Hr e1 E1).
    destruct (cloned_per_frame e cam HC) as [PF NT].
    pose proof (step_stamps e o e1 cam I C E1 NT) as S1. destruct (step_len e o e1 I C E1) as [L1 _].
    pose proof (cloned_stays e o e1 cam I C E1 HC) as HC1.
    unfold frames_of. cbn [flat_map]. fold (frames_of cam l). rewrite app_assoc.
    assert (KEEP : stamps e1 cam = stamps e cam -> map a_frame (aug_at e1 cam) = last_n n base).
    { intros X. rewrite <- stamps_frames, X, stamps_frames. exact Hs. }
    destruct o; cbn [window_size]; rewrite ?app_nil_r; try (rewrite <- L1; apply (IH e1 e' cam base n I1 Hr E HC1 Hn (KEEP S1))).
    destruct (Nat.eqb_spec cam0 cam) as [->|X].
    + rewrite PF, Nat.eqb_refl in S1. cbn [andb] in S1. cbn [andb]. rewrite <- L1.
      assert (M : 1 <= e_max_len e).
      { apply (pre_len _ (wf_pre _ (proj1 I))). destruct HC as [HC|[HC _]]; auto. }
      assert (LN : length (aug_at e cam) = n) by (rewrite <- (map_length a_frame), Hs; apply last_length; exact Hn).
      assert (F : map a_frame (aug_at e1 cam) = last_n (if n <? e_max_len e1 then S n else n) (base ++ [frame])).
      { rewrite <- stamps_frames, S1, map_map. change (fun x => fst (stamp x)) with a_frame.
        rewrite next_window_frames, Hs, LN, L1. cbn [clone_of a_frame].
        destruct (Nat.ltb_spec n (e_max_len e)); [symmetry; apply last_grow; exact Hn|apply last_slide; lia]. }
      refine (IH e1 e' cam (base ++ [frame]) _ I1 Hr E HC1 _ F). rewrite app_length. cbn [length]. destruct (n <? e_max_len e1); lia.
    + rewrite app_nil_r. cbn [andb]. assert (Q : Nat.eqb cam cam0 = false) by (apply Nat.eqb_neq; congruence).
      rewrite Q, andb_false_r in S1. rewrite <- L1. apply (IH e1 e' cam base n I1 Hr E HC1 Hn (KEEP S1)).
Qed.
Theorem window_history : forall l e e' cam, reachable e -> respects e l -> run e l = OK e' -> cloned_each e cam ->
  map a_frame (aug_at e' cam) =
    last_n (window_size cam (e_max_len e) (length (aug_at e cam)) l) (map a_frame (aug_at e cam) ++ frames_of cam l) /\
  length (aug_at e' cam) = window_size cam (e_max_len e) (length (aug_at e cam)) l.
Proof.
  intros l e e' cam Hr Hs E HC.
  destruct (run_size l e e' cam (map a_frame (aug_at e cam)) (length (aug_at e cam)) (reachable_inv e Hr) Hs E HC) as [L F].
  - rewrite map_length. lia.
  - rewrite <- (map_length a_frame). symmetry. apply last_all.
  - split; [exact F|]. rewrite <- (map_length a_frame (aug_at e' cam)), F. apply last_length. exact L.
Qed.
Lemma size_grows : forall l cam m n, n <= window_size cam m n l.
Proof.
  induction l as [|o l IH]; intros cam m n; cbn [window_size]; [lia|].
  destruct o; try apply IH. etransitivity; [|apply IH]. destruct (_ && _); lia.
Qed.
Lemma size_full : forall l cam m n, Forall same_len l -> m <= n -> window_size cam m n l = n.
Proof.
  induction l as [|o l IH]; intros cam m n F H; cbn [window_size]; [reflexivity|]. inversion F as [|? ? F1 F2]; subst.
  destruct o; try (apply IH; assumption); [|destruct F1].
  assert (Q : n <? m = false) by (apply Nat.ltb_ge; exact H). rewrite Q, andb_false_r. apply IH; assumption.
Qed.
Theorem window_never_shrinks : forall l e e' cam, reachable e -> respects e l -> run e l = OK e' -> cloned_each e cam ->
  length (aug_at e cam) <= length (aug_at e' cam).
Proof. intros l e e' cam Hr Hs E HC. destruct (window_history l e e' cam Hr Hs E HC) as [_ ->]. apply size_grows. Qed.
Theorem window_lowered : forall l m e e' cam, reachable e -> respects e (OSetLen m :: l) -> run e (OSetLen m :: l) = OK e' ->
  cloned_each e cam -> Forall same_len l -> m <= length (aug_at e cam) ->
  length (aug_at e' cam) = length (aug_at e cam) /\
  map a_frame (aug_at e' cam) = last_n (length (aug_at e cam)) (map a_frame (aug_at e cam) ++ frames_of cam l).
Proof.
  intros l m e e' cam Hr Hs E HC F H. destruct (window_history _ e e' cam Hr Hs E HC) as [W L].
  cbn [window_size] in W, L. rewrite size_full in W, L by assumption. split; [exact L|]. rewrite W. reflexivity.
Qed.

(** Cameras other than the primary one. *)
Theorem window_others : forall l e e' cam, reachable e -> respects e l -> run e l = OK e' -> p_aug (e_par e) = APrimary ->
  e_primary e <> 0 -> cam <> e_primary e -> stamps e' cam = stamps e cam.
Proof.
  intros l e e' cam Hr. apply reachable_inv in Hr. revert e e' Hr.
  induction l as [|o l IH]; intros e e' I Hr E HA N D; cbn [run respects] in *; [injection E as <-; reflexivity|].
  destruct Hr as [C Hr]. destruct (step_inv e o I C) as [e1 [E1 I1]]. rewrite E1 in E. cbn [bind] in E.
  assert (NT : ~ timed e) by (unfold timed; rewrite HA; intros [|]; discriminate).
  pose proof (step_stamps e o e1 cam I C E1 NT) as S1. destruct (step_len e o e1 I C E1) as [_ P1].
  pose proof (primary_stays e o e1 E1 N) as Q.
  rewrite (IH e1 e' I1 (Hr e1 E1) E); [|congruence|congruence|congruence].
  destruct o; try exact S1. rewrite S1. unfold per_frame. rewrite HA. cbn [orb andb].
  destruct (Nat.eqb_spec cam0 (e_primary e)); [|reflexivity]. destruct (Nat.eqb_spec cam cam0); [congruence|reflexivity].
Qed.

(** Length 0 *)
Theorem window_zero : forall e cam frame, per_frame e cam = true -> e_max_len e = 0 -> aug_at e cam = [] ->
  AugmentStateFrame e cam frame = UB.
Proof.
  intros e cam frame PF M A. unfold AugmentStateFrame. cbv zeta.
  change (e_par (with_frame_recv e true)) with (e_par e). change (e_primary (with_frame_recv e true)) with (e_primary e).
  unfold per_frame in PF. rewrite PF.
  change (aug_at (with_frame_recv e true) cam) with (aug_at e cam). rewrite A.
  assert (G : forall x y, aug_at (set_aug x cam y) cam = y).
  { intros x y. unfold aug_at, set_aug. cbn. unfold mget. rewrite mfind_mset_eq. reflexivity. }
  rewrite !G. change (e_max_len (set_aug ?x _ _)) with (e_max_len e). rewrite M. cbn [app length Nat.leb vnth nth_error bind erase firstn skipn].
  destruct (RemoveFromMatrix _ _ _ _ _) as [c|]; [|reflexivity]. cbn [bind].
  match goal with |- bind (RefreshIndices ?x) _ = _ => set (e1 := x) end.
  destruct (RefreshIndices e1) as [e2|] eqn:R; [|reflexivity]. cbn [bind].
  assert (Z : aug_at e2 cam = []).
  { apply (map_eq_nil a_frame). pose proof (frames_refresh e1 e2 cam R) as Q. unfold frames_at in Q. rewrite Q. unfold e1.
    change (aug_at (with_cov ?x c) cam) with (aug_at x cam). rewrite G. reflexivity. }
  rewrite Z. reflexivity.
Qed.

(** *** A case *)
Theorem window_zero' : forall e cam frame, cloned_each e cam -> e_max_len e = 0 -> aug_at e cam = [] ->
  AugmentStateFrame e cam frame = UB.
Proof. intros e cam frame C. apply window_zero, (proj1 (cloned_per_frame e cam C)). Qed.
Lemma run_par : forall l x y, inv x -> respects x l -> run x l = OK y -> e_par y = e_par x.
Proof.
  induction l as [|o l IH]; intros x y J Q R; cbn [run respects] in *; [injection R as <-; reflexivity|].
  destruct Q as [C Q]. destruct (step_inv x o J C) as [x1 [E1 J1]]. rewrite E1 in R. cbn [bind] in R.
  destruct (step_len x o x1 J C E1) as [_ P]. rewrite <- P. apply (IH x1 y J1 (Q x1 E1) R).
Qed.
Lemma lowered_case : exists e e', reachable e /\ respects e [OSetLen 1; OFrame 2 10] /\ run e [OSetLen 1; OFrame 2 10] = OK e' /\
  cloned_each e 2 /\ map a_frame (aug_at e 2) = [8; 9] /\ map a_frame (aug_at e' 2) = [9; 10].
Proof.
  pose proof (init_inv (demo_par AAll false) demo_noise v0 0 demo_noise_arg) as I0.
  destruct (run_inv demo_ops (demo0 AAll false) I0 (demo_respects AAll false)) as [e [E I]].
  destruct (window_history demo_ops (demo0 AAll false) e 2 (demo0_reachable AAll false) (demo_respects AAll false) E (or_introl eq_refl)) as [F _].
  change (map a_frame (aug_at e 2) = [8; 9]) in F.
  assert (Hr : reachable e) by (exists (demo_par AAll false), demo_noise, v0, 0%R, demo_ops; split; [apply demo_noise_arg|]; split; [apply (demo_respects AAll false)|exact E]).
  assert (S : respects e [OSetLen 1; OFrame 2 10]).
  { cbn [respects contract]. split; [lia|]. intros e1 _. split; [exact Logic.I|]. auto. }
  destruct (run_inv _ e (reachable_inv _ Hr) S) as [e' [E' _]].
  assert (A : cloned_each e 2) by (left; rewrite (run_par _ _ _ I0 (demo_respects AAll false) E); reflexivity).
  exists e, e'. do 5 (split; [assumption|]).
  assert (L : length (aug_at e 2) = 2) by (rewrite <- (map_length a_frame), F; reflexivity).
  destruct (window_lowered [OFrame 2 10] 1 e e' 2 Hr S E' A) as [_ W']; [repeat constructor|lia|].
  rewrite W', L, F. reflexivity.
Qed.
Lemma primary_case : exists e e', reachable e /\ respects e [OFrame 2 10; OFrame 3 11] /\ run e [OFrame 2 10; OFrame 3 11] = OK e' /\
  p_aug (e_par e) = APrimary /\ e_primary e = 2 /\ map a_frame (aug_at e' 2) = [10] /\ aug_at e' 3 = [].
Proof.
  pose proof (demo0_reachable APrimary false) as R0.
  assert (C : cam_reg_ok demo_cam (demo_cov 6)).
  { split; [reflexivity|]. split; [reflexivity|]. split; [reflexivity|]. cbn. pose proof e9_pos. split; auto with real. }
  destruct (RegisterCamera_ok (demo0 APrimary false) 2 demo_cam (demo_cov 6) (proj1 (reachable_inv _ R0)) eq_refl C)
    as [e [E [_ [_ [_ [_ [_ [P _]]]]]]]].
  assert (Q : contract (demo0 APrimary false) (ORegCam 2 demo_cam (demo_cov 6))).
  { cbn [contract]. intros _. split; [reflexivity|]. split; [apply demo_cov_arg|]. cbn. pose proof e9_pos. split; auto with real. }
  pose proof (reachable_step _ (ORegCam 2 demo_cam (demo_cov 6)) _ R0 Q E) as Hr.
  destruct (step_len _ (ORegCam 2 demo_cam (demo_cov 6)) e (reachable_inv _ R0) Q E) as [ML PA].
  pose proof (step_stamps _ (ORegCam 2 demo_cam (demo_cov 6)) e 2 (reachable_inv _ R0) Q E) as S2.
  pose proof (step_stamps _ (ORegCam 2 demo_cam (demo_cov 6)) e 3 (reachable_inv _ R0) Q E) as S3.
  assert (NT : ~ timed (demo0 APrimary false)) by (intros [X|X]; discriminate).
  specialize (S2 NT). specialize (S3 NT). cbv beta iota in S2, S3. change (stamps e 2 = []) in S2. change (stamps e 3 = []) in S3.
  apply map_eq_nil in S2. apply map_eq_nil in S3.
  change (e_primary e = 2) in P. change (e_max_len e = 20) in ML.
  assert (S : respects e [OFrame 2 10; OFrame 3 11]) by (cbn [respects contract]; auto).
  destruct (run_inv _ e (reachable_inv _ Hr) S) as [e' [E' _]].
  assert (PA' : p_aug (e_par e) = APrimary) by (rewrite PA; reflexivity).
  exists e, e'. do 5 (split; [assumption|]). split.
  - assert (HC : cloned_each e 2) by (right; split; [exact PA'|]; split; [exact P|discriminate]).
    destruct (window_history [OFrame 2 10; OFrame 3 11] e e' 2 Hr S E' HC) as [F _]. rewrite F. clear - S2 ML. rewrite S2, ML. reflexivity.
  - apply (map_eq_nil stamp). change (stamps e' 3 = []). rewrite (window_others _ e e' 3 Hr S E' PA'); [unfold stamps; rewrite S3; reflexivity|congruence|congruence].
Qed.
