(** No scalar occurs twice in the layout. *)
From Coq Require Import Reals List Arith Bool Lia Sorted FinFun.
From Verif Require Import Base.AMap Model.Types Spec.Layout Spec.History Proofs.Wf.
Import ListNotations.
Open Scope nat_scope.

Definition kind (l : label) : nat :=
  match l with LBody _ => 0 | LImuExt _ _ => 1 | LImuInt _ _ => 1 | LGps _ _ => 2 | LCam _ _ => 3
  | LFid _ _ => 4 | LAug _ _ _ => 5 end.
Definition owner (l : label) : nat :=
  match l with LBody _ => 0 | LImuExt i _ => i | LImuInt i _ => i | LGps i _ => i | LCam i _ => i
  | LFid i _ => i | LAug k _ _ => k end.

Lemma NoDup_app2 : forall A (l r : list A), NoDup l -> NoDup r -> (forall x, In x l -> ~ In x r) -> NoDup (l ++ r).
Proof.
  induction l as [|x l IH]; intros r Hl Hr H; [exact Hr|]. cbn [app]. inversion Hl; subst. constructor.
  - rewrite in_app_iff. intros [X|X]; [auto|]. apply (H x); [left; reflexivity|exact X].
  - apply IH; auto. intros y Hy. apply H. right. exact Hy.
Qed.

Lemma NoDup_flat : forall A (f : nat * A -> list label) (m : list (nat * A)),
  NoDup (map fst m) -> (forall x, In x m -> NoDup (f x)) ->
  (forall x lb, In lb (f x) -> owner lb = fst x) -> NoDup (flat_map f m).
Proof.
  intros A f m. induction m as [|x m IH]; intros Hk Hf Ho; [constructor|].
  cbn [flat_map]. inversion Hk; subst. apply NoDup_app2.
  - apply Hf. left. reflexivity.
  - apply IH; auto. intros y Hy. apply Hf. right. exact Hy.
  - intros lb H1' H2'. apply in_flat_map in H2'. destruct H2' as [y [Hy H3']].
    apply Ho in H1'. apply Ho in H3'. apply H1. rewrite <- H1', H3'. apply in_map. exact Hy.
Qed.

Lemma sorted_NoDup : forall A (m : amap A), sorted m -> NoDup (map fst m).
Proof.
  intros A m. unfold sorted, keys. induction (map fst m) as [|k l IH]; intros H; [constructor|].
  inversion H; subst. constructor; [|apply IH; assumption].
  intros X. rewrite Forall_forall in H3. specialize (H3 k X). lia.
Qed.

Lemma six_NoDup : forall f, (forall a b, f a = f b -> a = b) -> NoDup (six f).
Proof.
  intros f Hf. unfold six. apply Injective_map_NoDup; [exact Hf|apply seq_NoDup].
Qed.
Lemma three_NoDup : forall f, (forall a b, f a = f b -> a = b) -> NoDup (three f).
Proof.
  intros f Hf. unfold three. apply Injective_map_NoDup; [exact Hf|apply seq_NoDup].
Qed.

Lemma in_six : forall f x, In x (six f) -> exists k, k < 6 /\ x = f k.
Proof. intros f x H. unfold six in H. apply in_map_iff in H. destruct H as [k [<- Hk]]. apply in_seq in Hk. exists k. split; [lia|reflexivity]. Qed.
Lemma in_three : forall f x, In x (three f) -> exists k, k < 3 /\ x = f k.
Proof. intros f x H. unfold three in H. apply in_map_iff in H. destruct H as [k [<- Hk]]. apply in_seq in Hk. exists k. split; [lia|reflexivity]. Qed.

Lemma imu_labels_in : forall x lb, In lb (imu_labels x) -> owner lb = fst x /\ kind lb = 1.
Proof.
  intros x lb H. unfold imu_labels in H. apply in_app_iff in H.
  destruct (i_ext (snd x)), (i_int (snd x)); destruct H as [H|H]; try contradiction;
    apply in_six in H; destruct H as [k [_ ->]]; auto.
Qed.
Lemma gps_labels_in : forall x lb, In lb (gps_labels x) -> owner lb = fst x /\ kind lb = 2.
Proof.
  intros x lb H. unfold gps_labels in H. destruct (g_ext (snd x)); [|contradiction].
  apply in_three in H; destruct H as [k [_ ->]]; auto.
Qed.
Lemma cam_labels_in : forall x lb, In lb (cam_labels x) -> owner lb = fst x /\ kind lb = 3.
Proof.
  intros x lb H. unfold cam_labels in H. destruct (c_ext (snd x)); [|contradiction].
  apply in_six in H; destruct H as [k [_ ->]]; auto.
Qed.
Lemma fid_labels_in : forall x lb, In lb (fid_labels x) -> owner lb = fst x /\ kind lb = 4.
Proof.
  intros x lb H. unfold fid_labels in H. destruct (f_ext (snd x)); [|contradiction].
  apply in_six in H; destruct H as [k [_ ->]]; auto.
Qed.
Lemma aug_labels_in : forall x lb, In lb (aug_labels x) -> owner lb = fst x /\ kind lb = 5.
Proof.
  intros x lb H. unfold aug_labels in H. apply in_flat_map in H. destruct H as [p [_ H]].
  apply in_six in H; destruct H as [k [_ ->]]; auto.
Qed.

Lemma aug_labels_NoDup : forall x, NoDup (aug_labels x).
Proof.
  intros x. unfold aug_labels.
  assert (G : forall n a, NoDup (flat_map (fun pos => six (LAug (fst x) pos)) (seq a n))).
  { induction n as [|n IH]; intros a; [constructor|]. cbn [seq flat_map]. apply NoDup_app2.
    - apply six_NoDup. intros u v X. now injection X.
    - apply IH.
    - intros lb H1 H2. apply in_six in H1. destruct H1 as [k [_ ->]].
      apply in_flat_map in H2. destruct H2 as [p [Hp H2]]. apply in_seq in Hp.
      apply in_six in H2. destruct H2 as [k' [_ X]]. injection X as X _. lia. }
  apply G.
Qed.

Lemma kind_flat : forall A (f : nat * A -> list label) n (m : list (nat * A)) lb,
  (forall x lb, In lb (f x) -> owner lb = fst x /\ kind lb = n) -> In lb (flat_map f m) -> kind lb = n.
Proof. intros A f n m lb H X. apply in_flat_map in X. destruct X as [x [_ X]]. apply (H x lb X). Qed.

Theorem layout_NoDup : forall s, sorted_state s -> NoDup (layout s).
Proof.
  intros s [S1 [S2 [S3 [S4 S5]]]]. unfold layout.
  assert (K0 : forall lb, In lb (map LBody (seq 0 18)) -> kind lb = 0).
  { intros lb H. apply in_map_iff in H. destruct H as [k [<- _]]. reflexivity. }
  pose proof (fun lb => kind_flat _ imu_labels 1 (s_imu s) lb imu_labels_in) as K1.
  pose proof (fun lb => kind_flat _ gps_labels 2 (s_gps s) lb gps_labels_in) as K2.
  pose proof (fun lb => kind_flat _ cam_labels 3 (s_cam s) lb cam_labels_in) as K3.
  pose proof (fun lb => kind_flat _ fid_labels 4 (s_fid s) lb fid_labels_in) as K4.
  pose proof (fun lb => kind_flat _ aug_labels 5 (s_aug s) lb aug_labels_in) as K5.
  repeat apply NoDup_app2.
  - apply Injective_map_NoDup; [intros a b X; now injection X|apply seq_NoDup].
  - apply NoDup_flat; [apply sorted_NoDup; auto| |intros x lb H; apply (imu_labels_in x lb H)].
    intros x _. unfold imu_labels. apply NoDup_app2.
    + destruct (i_ext (snd x)); [apply six_NoDup; intros a b X; now injection X|constructor].
    + destruct (i_int (snd x)); [apply six_NoDup; intros a b X; now injection X|constructor].
    + intros lb H1 H2. destruct (i_ext (snd x)); [|contradiction]. destruct (i_int (snd x)); [|contradiction].
      apply in_six in H1. apply in_six in H2. destruct H1 as [a [_ ->]]. destruct H2 as [b [_ X]]. discriminate.
  - apply NoDup_flat; [apply sorted_NoDup; auto| |intros x lb H; apply (gps_labels_in x lb H)].
    intros x _. unfold gps_labels. destruct (g_ext (snd x)); [apply three_NoDup; intros a b X; now injection X|constructor].
  - apply NoDup_flat; [apply sorted_NoDup; auto| |intros x lb H; apply (cam_labels_in x lb H)].
    intros x _. unfold cam_labels. destruct (c_ext (snd x)); [apply six_NoDup; intros a b X; now injection X|constructor].
  - apply NoDup_flat; [apply sorted_NoDup; auto| |intros x lb H; apply (fid_labels_in x lb H)].
    intros x _. unfold fid_labels. destruct (f_ext (snd x)); [apply six_NoDup; intros a b X; now injection X|constructor].
  - apply NoDup_flat; [apply sorted_NoDup; auto| |intros x lb H; apply (aug_labels_in x lb H)].
    intros x _. apply aug_labels_NoDup.
  - intros lb H1 H2. apply K4 in H1. apply K5 in H2. lia.
  - intros lb H1 H2. apply K3 in H1. rewrite !in_app_iff in H2. destruct H2 as [H2|H2]; [apply K4 in H2|apply K5 in H2]; lia.
  - intros lb H1 H2. apply K2 in H1. rewrite !in_app_iff in H2.
    destruct H2 as [H2|[H2|H2]]; [apply K3 in H2|apply K4 in H2|apply K5 in H2]; lia.
  - intros lb H1 H2. apply K1 in H1. rewrite !in_app_iff in H2.
    destruct H2 as [H2|[H2|[H2|H2]]]; [apply K2 in H2|apply K3 in H2|apply K4 in H2|apply K5 in H2]; lia.
  - intros lb H1 H2. apply K0 in H1. rewrite !in_app_iff in H2.
    destruct H2 as [H2|[H2|[H2|[H2|H2]]]]; [apply K1 in H2|apply K2 in H2|apply K3 in H2|apply K4 in H2|apply K5 in H2]; lia.
Qed.
