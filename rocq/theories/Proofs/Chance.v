(** The covariances of the abstract filter are the covariances of the errors. *)
From Coq Require Import Reals List Arith Bool Lia Lra.
From Verif Require Import Base.Mat Base.RDec Base.RSum Base.LinAlg Base.Inverse Model.Types Model.Ekf Model.Ops Spec.ByName Spec.Chance.
Import ListNotations.
Open Scope R_scope.

Section Law.
Context {A : Type}.
Variable L : law A.

Lemma mean_ext : forall f g, (forall a, f a = g a) -> mean L f = mean L g.
Proof. intros f g H. induction L as [|[w a] t IH]; cbn; [reflexivity|]. rewrite H, IH. reflexivity. Qed.
Lemma mean_plus : forall f g, mean L (fun a => f a + g a) = mean L f + mean L g.
Proof. intros f g. induction L as [|[w a] t IH]; cbn; [ring|]. rewrite IH. ring. Qed.
Lemma mean_scal : forall c f, mean L (fun a => c * f a) = c * mean L f.
Proof. intros c f. induction L as [|[w a] t IH]; cbn; [ring|]. rewrite IH. ring. Qed.
Lemma mean_zero : mean L (fun _ => 0) = 0.
Proof. induction L as [|[w a] t IH]; cbn; [reflexivity|]. rewrite IH. ring. Qed.
Lemma mean_over : forall (l : list name) (f : A -> name -> R), mean L (fun a => over l (f a)) = over l (fun x => mean L (fun a => f a x)).
Proof.
  intros l f. induction l as [|x t IH]; [apply mean_zero|].
  change (mean L (fun a => f a x + over t (f a)) = mean L (fun a => f a x) + over t (fun x => mean L (fun a => f a x))).
  rewrite (mean_plus (fun a => f a x) (fun a => over t (f a))), IH. reflexivity.
Qed.
Lemma mean_rsum : forall n (f : A -> nat -> R), mean L (fun a => rsum n (f a)) = rsum n (fun i => mean L (fun a => f a i)).
Proof.
  intros n f. induction n as [|n IH]; cbn [rsum]; [apply mean_zero|].
  rewrite (mean_plus (fun a => rsum n (f a)) (fun a => f a n)), IH. reflexivity.
Qed.

Lemma spread_ext : forall f f' g g', (forall a, f a = f' a) -> (forall a, g a = g' a) -> spread L f g = spread L f' g'.
Proof. intros f f' g g' Hf Hg. unfold spread. rewrite (mean_ext f f' Hf), (mean_ext g g' Hg). apply mean_ext. intros a. rewrite Hf, Hg. reflexivity. Qed.
Lemma spread_sym : forall f g, spread L f g = spread L g f.
Proof. intros f g. unfold spread. apply mean_ext. intros a. ring. Qed.
Lemma spread_plus_l : forall f f' g, spread L (fun a => f a + f' a) g = spread L f g + spread L f' g.
Proof.
  intros f f' g. unfold spread. rewrite (mean_plus f f').
  rewrite <- (mean_plus (fun a => (f a - mean L f) * (g a - mean L g)) (fun a => (f' a - mean L f') * (g a - mean L g))).
  apply mean_ext. intros a. ring.
Qed.
Lemma spread_scal_l : forall c f g, spread L (fun a => c * f a) g = c * spread L f g.
Proof. intros c f g. unfold spread. rewrite (mean_scal c f). rewrite <- (mean_scal c (fun a => (f a - mean L f) * (g a - mean L g))). apply mean_ext. intros a. ring. Qed.
Lemma spread_plus_r : forall f g g', spread L f (fun a => g a + g' a) = spread L f g + spread L f g'.
Proof. intros. rewrite spread_sym, spread_plus_l, (spread_sym g), (spread_sym g'). reflexivity. Qed.
Lemma spread_scal_r : forall c f g, spread L f (fun a => c * g a) = c * spread L f g.
Proof. intros. rewrite spread_sym, spread_scal_l, spread_sym. reflexivity. Qed.
Lemma spread_minus_l : forall f f' g, spread L (fun a => f a - f' a) g = spread L f g - spread L f' g.
Proof.
  intros f f' g. rewrite (spread_ext _ (fun a => f a + -1 * f' a) _ g) by (intros; ring).
  rewrite spread_plus_l, spread_scal_l. ring.
Qed.
Lemma spread_minus_r : forall f g g', spread L f (fun a => g a - g' a) = spread L f g - spread L f g'.
Proof. intros. rewrite spread_sym, spread_minus_l, (spread_sym g), (spread_sym g'). reflexivity. Qed.
Lemma spread_zero_l : forall g, spread L (fun _ => 0) g = 0.
Proof. intros g. rewrite (spread_ext _ (fun a => 0 * 0) _ g) by (intros; ring). rewrite (spread_scal_l 0 (fun _ => 0)). ring. Qed.
Lemma spread_over_l : forall (l : list name) (f : A -> name -> R) g, spread L (fun a => over l (f a)) g = over l (fun x => spread L (fun a => f a x) g).
Proof.
  intros l f g. induction l as [|x t IH]; [apply spread_zero_l|].
  change (spread L (fun a => f a x + over t (f a)) g = spread L (fun a => f a x) g + over t (fun x => spread L (fun a => f a x) g)).
  rewrite (spread_plus_l (fun a => f a x) (fun a => over t (f a))), IH. reflexivity.
Qed.
Lemma spread_over_r : forall (l : list name) (f : A -> name -> R) g, spread L g (fun a => over l (f a)) = over l (fun x => spread L g (fun a => f a x)).
Proof.
  intros l f g. rewrite spread_sym, spread_over_l. induction l as [|x t IH]; [reflexivity|].
  change (spread L (fun a => f a x) g + over t (fun x => spread L (fun a => f a x) g) = spread L g (fun a => f a x) + over t (fun x => spread L g (fun a => f a x))).
  rewrite IH, spread_sym. reflexivity.
Qed.
Lemma spread_rsum_l : forall n (f : A -> nat -> R) g, spread L (fun a => rsum n (f a)) g = rsum n (fun i => spread L (fun a => f a i) g).
Proof.
  intros n f g. induction n as [|n IH]; cbn [rsum]; [apply spread_zero_l|].
  rewrite (spread_plus_l (fun a => rsum n (f a)) (fun a => f a n)), IH. reflexivity.
Qed.
Lemma spread_rsum_r : forall n (f : A -> nat -> R) g, spread L g (fun a => rsum n (f a)) = rsum n (fun i => spread L g (fun a => f a i)).
Proof. intros n f g. rewrite spread_sym, spread_rsum_l. apply rsum_ext. intros. apply spread_sym. Qed.
Lemma over_ext : forall l f g, (forall x, In x l -> f x = g x) -> over l f = over l g.
Proof.
  intros l f g H. induction l as [|x t IH]; cbn; [reflexivity|]. rewrite H by (left; reflexivity). unfold over in IH. rewrite IH; [reflexivity|].
  intros y Hy. apply H. right. exact Hy.
Qed.
Lemma over_scal : forall l c f, over l (fun x => c * f x) = c * over l f.
Proof. intros l c f. induction l as [|x t IH]; cbn; [ring|]. unfold over in IH. rewrite IH. ring. Qed.
Lemma over_zero : forall l f, (forall x, In x l -> f x = 0) -> over l f = 0.
Proof.
  intros l f H. induction l as [|x t IH]; cbn; [reflexivity|]. rewrite H by (left; reflexivity).
  unfold over in IH. rewrite IH; [ring|]. intros y Hy. apply H. right. exact Hy.
Qed.
Lemma spread_self : forall f, chances L -> 0 <= spread L f f.
Proof.
  intros f [W _]. unfold spread. generalize (mean L f). intros m. clear -W. induction L as [|[w a] t IH]; cbn; [lra|].
  assert (0 <= w) by (apply (W w a); left; reflexivity). assert (0 <= mean t (fun a => (f a - m) * (f a - m))) by (apply IH; intros; eapply W; right; eassumption).
  pose proof (Rle_0_sqr (f a - m)) as Q. unfold Rsqr in Q. nra.
Qed.

(** *** A measurement *)
Section Measure.
Variables (b : byname) (m : nat) (H : nat -> name -> R) (err : errors A) (v : A -> nat -> R) (N : mat R) (N0 : fmat).
Hypothesis weights : chances L.
Hypothesis right : right_about L b err.
Hypothesis noise : noise_of L (n_names b) m N0 err v.
Hypothesis positive : spd m (ent N).

Let names := n_names b.
Let PHt x i := over names (fun y => n_cov b x y * H i y).
Let HP i y := over names (fun x => H i x * n_cov b x y).
Let S i j := over names (fun x => H i x * PHt x j) + ent N i j.
Let E x := fun a => err a x.
Let D i := fun a : A => over names (fun x => H i x * err a x).
Let r i := fun a => innovation names H err v a i.

Lemma cov_sym : forall x y, In x names -> In y names -> n_cov b x y = n_cov b y x.
Proof. intros x y Hx Hy. rewrite <- (proj2 (right x y Hx Hy)), <- (proj2 (right y x Hy Hx)). apply spread_sym. Qed.
Lemma PHt_HP : forall x i, In x names -> PHt x i = HP i x.
Proof. intros x i Hx. unfold PHt, HP. apply over_ext. intros y Hy. rewrite (cov_sym x y Hx Hy). ring. Qed.
Lemma E_D : forall x i, In x names -> spread L (E x) (D i) = PHt x i.
Proof.
  intros x i Hx. unfold D. rewrite spread_over_r. unfold PHt. apply over_ext. intros y Hy.
  rewrite spread_scal_r. unfold E. rewrite (proj2 (right x y Hx Hy)). ring.
Qed.
Lemma E_r : forall x i, In x names -> (i < m)%nat -> spread L (E x) (r i) = PHt x i.
Proof.
  intros x i Hx Hi. change (spread L (E x) (fun a => D i a + v a i) = PHt x i). rewrite (spread_plus_r (E x) (D i) (fun a => v a i)), E_D by exact Hx.
  destruct noise as [U _]. unfold E. rewrite (U x i Hx Hi). ring.
Qed.
Lemma D_D : forall i j, spread L (D i) (D j) = over names (fun x => H i x * PHt x j).
Proof.
  intros i j. unfold D at 1. rewrite spread_over_l. apply over_ext. intros x Hx. rewrite spread_scal_l. f_equal. apply (E_D x j Hx).
Qed.
Lemma D_v : forall i j, (j < m)%nat -> spread L (D i) (fun a => v a j) = 0.
Proof.
  intros i j Hj. unfold D. rewrite spread_over_l. apply over_zero. intros x Hx. rewrite spread_scal_l.
  destruct noise as [U _]. rewrite (U x j Hx Hj). ring.
Qed.
Lemma r_r : forall i j, (i < m)%nat -> (j < m)%nat -> spread L (r i) (r j) = S i j + (N0 i j - ent N i j).
Proof.
  intros i j Hi Hj. change (spread L (fun a => D i a + v a i) (fun a => D j a + v a j) = S i j + (N0 i j - ent N i j)).
  rewrite (spread_plus_l (D i) (fun a => v a i)), !(spread_plus_r _ (D j) (fun a => v a j)).
  rewrite D_D, (D_v i j Hj), (spread_sym (fun a => v a i) (D j)), (D_v j i Hi). destruct noise as [_ [_ U]]. rewrite U by assumption. unfold S. ring.
Qed.
Lemma S_sym : symm m S.
Proof.
  intros i j Hi Hj. unfold S. rewrite <- !D_D. rewrite (spread_sym (D i)). destruct positive as [P _]. rewrite (P i j Hi Hj). reflexivity.
Qed.
Lemma S_spd : spd m S.
Proof.
  split; [exact S_sym|]. intros x Hx. destruct positive as [_ P]. specialize (P x Hx). rewrite qf_expand in *.
  pose proof (spread_self (fun a => rsum m (fun i => x i * D i a)) weights) as Q.
  rewrite spread_rsum_l in Q.
  assert (Q' : 0 <= rsum m (fun i => rsum m (fun j => x i * over names (fun y => H i y * PHt y j) * x j))).
  { eapply Rle_trans; [exact Q|]. right. apply rsum_ext. intros i _. rewrite spread_rsum_r. apply rsum_ext. intros j _.
    rewrite (spread_scal_l (x i) (D i)), (spread_scal_r (x j) _ (D j)), D_D. ring. }
  apply Rlt_le_trans with (rsum m (fun i => rsum m (fun j => x i * over names (fun y => H i y * PHt y j) * x j)) + rsum m (fun i => rsum m (fun j => x i * ent N i j * x j))); [lra|].
  right. rewrite <- rsum_plus. apply rsum_ext. intros i _. rewrite <- rsum_plus. apply rsum_ext. intros j _. unfold S. ring.
Qed.
Let Si := finv m S.
Let K x i := rsum m (fun j => PHt x j * Si j i).
Lemma Si_inv : is_inv m S Si.
Proof. apply inv_spd, S_spd. Qed.
Lemma Si_sym : symm m Si.
Proof. eapply inv_symm; [exact S_sym|exact Si_inv]. Qed.
Lemma K_S : forall y i, (i < m)%nat -> rsum m (fun j => K y j * S i j) = PHt y i.
Proof.
  intros y i Hi. unfold K.
  rewrite (rsum_ext m _ (fun j => rsum m (fun k => PHt y k * (Si k j * S j i)))).
  2:{ intros j Hj. rewrite <- rsum_scal_r. apply rsum_ext. intros k Hk. rewrite (S_sym i j Hi Hj). ring. }
  rewrite rsum_swap. rewrite (rsum_ext m _ (fun k => PHt y k * idm k i)).
  2:{ intros k Hk. rewrite rsum_scal_l. f_equal. destruct Si_inv as [_ I]. specialize (I k i Hk Hi). unfold mm in I. exact I. }
  unfold idm. rewrite (rsum_ext m _ (fun k => if Nat.eqb k i then PHt y k else 0)).
  2:{ intros k _. destruct (Nat.eqb k i); ring. }
  rewrite (rsum_single m i); [rewrite Nat.eqb_refl; reflexivity|exact Hi|].
  intros k _ Hk. destruct (Nat.eqb_spec k i); [contradiction|reflexivity].
Qed.

Theorem measured_spread : forall err', gained K m names H v err err' -> forall x y, In x names -> In y names ->
  mean L (fun a => err' a x) = 0 /\
  spread L (fun a => err' a x) (fun a => err' a y) =
    n_cov (nm_measure b m H N) x y + rsum m (fun i => rsum m (fun j => K x i * (N0 i j - ent N i j) * K y j)).
Proof.
  intros err' G x y Hx Hy. split.
  { rewrite (mean_ext _ (fun a => err a x + -1 * rsum m (fun i => K x i * r i a))).
    2:{ intros a. rewrite G. unfold r. ring. }
    rewrite mean_plus, mean_scal, mean_rsum, (proj1 (right x x Hx Hx)). rewrite rsum_0; [ring|]. intros i Hi.
    rewrite (mean_scal (K x i) (r i)). change (mean L (r i)) with (mean L (fun a => D i a + v a i)). rewrite (mean_plus (D i) (fun a => v a i)). unfold D. rewrite mean_over, over_zero.
    - destruct noise as [_ [M _]]. rewrite M by exact Hi. ring.
    - intros z Hz. rewrite mean_scal, (proj1 (right z z Hz Hz)). ring. }
  rewrite (spread_ext _ (fun a => E x a - rsum m (fun i => K x i * r i a)) _ (fun a => E y a - rsum m (fun i => K y i * r i a))).
  2,3: intros a; rewrite G; reflexivity.
  rewrite spread_minus_l, !spread_minus_r.
  assert (XY : spread L (E x) (E y) = n_cov b x y) by (apply right; assumption).
  assert (X1 : spread L (E x) (fun a => rsum m (fun i => K y i * r i a)) = rsum m (fun j => K y j * PHt x j)).
  { rewrite spread_rsum_r. apply rsum_ext. intros i Hi. rewrite (spread_scal_r (K y i) (E x) (r i)), E_r by assumption. reflexivity. }
  assert (X2 : spread L (fun a => rsum m (fun i => K x i * r i a)) (E y) = rsum m (fun i => K x i * PHt y i)).
  { rewrite spread_sym, spread_rsum_r. apply rsum_ext. intros i Hi. rewrite (spread_scal_r (K x i) (E y) (r i)), E_r by assumption. reflexivity. }
  assert (X3 : spread L (fun a => rsum m (fun i => K x i * r i a)) (fun a => rsum m (fun i => K y i * r i a)) =
    rsum m (fun i => K x i * PHt y i) + rsum m (fun i => rsum m (fun j => K x i * (N0 i j - ent N i j) * K y j))).
  { rewrite spread_rsum_l, <- rsum_plus. apply rsum_ext. intros i Hi. rewrite (spread_scal_l (K x i) (r i)), spread_rsum_r.
    rewrite <- (K_S y i Hi). rewrite <- !rsum_scal_l, <- rsum_plus. apply rsum_ext. intros j Hj.
    rewrite (spread_scal_r (K y j) (r i) (r j)), r_r by assumption. ring. }
  rewrite XY, X1, X2, X3. unfold nm_measure, nm_windows. cbn [n_cov]. fold names.
  assert (X4 : rsum m (fun j => K y j * PHt x j) =
     rsum m (fun i => rsum m (fun j => over names (fun y0 => n_cov b x y0 * H i y0) * finv m (fun i0 j0 => over names (fun x0 => H i0 x0 * over names (fun y0 => n_cov b x0 y0 * H j0 y0)) + ent N i0 j0) i j * over names (fun x0 => H j x0 * n_cov b x0 y)))).
  { apply rsum_ext. intros j Hj. unfold K. rewrite <- rsum_scal_r. apply rsum_ext. intros i Hi.
    change (over names (fun y0 => n_cov b x y0 * H j y0)) with (PHt x j). change (over names (fun x0 => H i x0 * n_cov b x0 y)) with (HP i y).
    change (finv m _ j i) with (Si j i). rewrite (Si_sym i j Hi Hj), <- (PHt_HP y i Hy). ring. }
  rewrite X4. ring.
Qed.
End Measure.
End Law.

(** *** The other steps *)
Section Steps.
Context {A : Type}.
Variable L : law A.

Definition kept (b : byname) : Prop :=
  (forall k, (k < 18)%nat -> In (NBody k) (n_names b)) /\
  (forall cam m k, In (NClone cam m k) (n_names b) -> (m < n_next b cam)%nat).
Definition fine (b : byname) (err : errors A) : Prop := kept b /\ right_about L b err.

Lemma position_in : forall x l, In x l -> exists i, position x l = Some i.
Proof.
  intros x l. induction l as [|y t IH]; intros H; [destruct H|]. cbn. destruct (name_dec x y); [eexists; reflexivity|].
  destruct H as [H|H]; [congruence|]. destruct (IH H) as [i ->]. eexists. reflexivity.
Qed.
Lemma position_out : forall x l, ~ In x l -> position x l = None.
Proof.
  intros x l. induction l as [|y t IH]; intros H; [reflexivity|]. cbn. destruct (name_dec x y); [exfalso; apply H; left; congruence|].
  rewrite IH; [reflexivity|]. intros I. apply H. right. exact I.
Qed.
Lemma in_name_dec : forall (x : name) l, {In x l} + {~ In x l}.
Proof. intros. apply in_dec, name_dec. Qed.

Lemma fine_same : forall b b' err, n_names b' = n_names b -> n_cov b' = n_cov b -> n_next b' = n_next b -> fine b err -> fine b' err.
Proof.
  intros b b' err E1 E2 E3 [[K1 K2] R]. split; [split|]; unfold right_about; rewrite ?E1, ?E2, ?E3; assumption.
Qed.

Lemma fine_joined : forall b l c stab err err', (forall x, In x l -> match x with NClone _ _ _ => False | _ => True end) ->
  fine b err -> joined L (n_names b) l c err err' -> fine (nm_enrol b l c stab) err'.
Proof.
  intros b l c stab err err' NC [[K1 K2] R] [J1 [J2 J3]]. split; [split|].
  - intros k Hk. cbn. apply in_or_app. right. apply K1. exact Hk.
  - intros cam m k H. cbn in H. apply in_app_or in H. destruct H as [H|H]; [destruct (NC _ H)|]. apply (K2 _ _ _ H).
  - intros x y Hx Hy. cbn [n_names n_cov nm_enrol] in *.
    destruct (in_name_dec x l) as [Ix|Ox], (in_name_dec y l) as [Iy|Oy].
    + destruct (position_in x l Ix) as [i Ei], (position_in y l Iy) as [j Ej]. rewrite Ei, Ej.
      destruct (J2 x y i j Ei Ej) as [S M]. split; assumption.
    + destruct (position_in x l Ix) as [i Ei]. rewrite Ei, (position_out y l Oy). split; [apply (J2 x x i i Ei Ei)|].
      apply J3; [exact Ix|]. split; [|exact Oy]. apply in_app_or in Hy. tauto.
    + destruct (position_in y l Iy) as [j Ej]. rewrite Ej, (position_out x l Ox).
      assert (Nx : In x (n_names b)) by (apply in_app_or in Hx; tauto). split.
      * rewrite (mean_ext L _ (fun a => err a x)) by (intros a; apply J1; exact Ox). apply (R x x Nx Nx).
      * rewrite spread_sym. apply J3; [exact Iy|]. split; [exact Nx|exact Ox].
    + rewrite (position_out x l Ox), (position_out y l Oy).
      assert (Nx : In x (n_names b)) by (apply in_app_or in Hx; tauto). assert (Ny : In y (n_names b)) by (apply in_app_or in Hy; tauto).
      rewrite (mean_ext L _ (fun a => err a x)) by (intros a; apply J1; exact Ox).
      rewrite (spread_ext L _ (fun a => err a x) _ (fun a => err a y)) by (intros a; apply J1; assumption). apply (R x y Nx Ny).
Qed.

Lemma fine_drop : forall b cam d err, fine b err -> fine (nm_drop b cam d) err.
Proof.
  intros b cam d err [[K1 K2] R]. split; [split|].
  - intros k Hk. cbn. apply filter_In. split; [apply K1; exact Hk|reflexivity].
  - intros c m k H. cbn in H. apply filter_In in H. apply (K2 _ _ _ (proj1 H)).
  - intros x y Hx Hy. cbn in Hx, Hy. apply filter_In in Hx. apply filter_In in Hy. cbn. apply R; tauto.
Qed.
Lemma origin_known : forall b cam x, kept b -> In x (ncopies 6 (NClone cam (n_next b cam)) ++ n_names b) -> In (origin cam (n_next b cam) x) (n_names b).
Proof.
  intros b cam x [K1 K2] H. apply in_app_or in H. destruct H as [H|H].
  - unfold ncopies in H. apply in_map_iff in H. destruct H as [k [<- Hk]]. apply in_seq in Hk. cbn [origin]. rewrite !Nat.eqb_refl. cbn [andb].
    unfold pose_of. destruct (Nat.ltb_spec k 3); apply K1; lia.
  - destruct x; cbn [origin]; try exact H. specialize (K2 _ _ _ H). destruct (Nat.eqb_spec cam0 cam) as [->|]; [|exact H].
    destruct (Nat.eqb_spec n (n_next b cam)); [lia|]. exact H.
Qed.
Lemma fine_clone : forall b cam err err', fine b err -> copied cam (n_next b cam) err err' -> fine (nm_clone b cam) err'.
Proof.
  intros b cam err err' [K R] C. split; [split|].
  - intros k Hk. cbn [n_names nm_clone nm_windows]. apply in_or_app. right. apply K. exact Hk.
  - intros c m k H. cbn [n_names nm_clone nm_windows n_next] in *. unfold bump. apply in_app_or in H. destruct H as [H|H].
    + unfold ncopies in H. apply in_map_iff in H. destruct H as [j [E _]]. injection E as <- <- _. rewrite Nat.eqb_refl. lia.
    + destruct K as [_ K]. specialize (K _ _ _ H). destruct (Nat.eqb_spec c cam) as [->|]; lia.
  - intros x y Hx Hy. cbn [n_names n_cov nm_clone nm_windows] in *.
    rewrite (mean_ext L _ (fun a => err a (origin cam (n_next b cam) x))) by (intros a; apply C).
    rewrite (spread_ext L _ (fun a => err a (origin cam (n_next b cam) x)) _ (fun a => err a (origin cam (n_next b cam) y))) by (intros a; apply C).
    apply R; apply origin_known; assumption.
Qed.
Lemma fine_settled : forall mode w b err err', fine b err -> settled mode w b err err' -> fine (nm_settle mode w b) err'.
Proof.
  assert (X : forall (w : nat * bool) b (err err' : errors A), fine b err -> (if snd w then copied 0 (n_next b 0) err err' else err' = err) ->
    fine (let a := if (0 <? fst w)%nat then nm_refresh (nm_drop b 0 (fst w)) else b in if snd w then nm_refresh (nm_clone a 0) else a) err').
  { intros w b err err' F S. cbv zeta.
    set (a := if (0 <? fst w)%nat then nm_refresh (nm_drop b 0 (fst w)) else b).
    assert (FA : fine a err).
    { unfold a. destruct (0 <? fst w)%nat; [|exact F]. eapply fine_same; [reflexivity|reflexivity|reflexivity|]. apply fine_drop. exact F. }
    assert (NA : n_next a = n_next b) by (unfold a; destruct (0 <? fst w)%nat; reflexivity).
    destruct (snd w); [|subst err'; exact FA]. eapply fine_same; [reflexivity|reflexivity|reflexivity|].
    eapply fine_clone; [exact FA|]. rewrite NA. exact S. }
  intros mode w b err err' F S. destruct mode; cbn [settled nm_settle] in *; try (subst err'; exact F); apply (X w b err err' F S).
Qed.

Lemma fine_drift : forall b dt err err', fine b err -> drifted L (n_names b) dt (n_rate b) err err' ->
  fine (nm_windows b (n_names b) (fun x y => pushed dt (fun x' => pushed dt (fun y' => diffused dt b x' y') y) x) (n_first b) (n_next b)) err'.
Proof.
  intros b dt err err' [[K1 K2] R] [w [U [M [C P]]]]. split; [split; assumption|].
  set (g := fun a x => err a x + w a x).
  assert (G : forall x y, In x (n_names b) -> In y (n_names b) ->
    mean L (fun a => g a x) = 0 /\ spread L (fun a => g a x) (fun a => g a y) = diffused dt b x y).
  { intros x y Hx Hy. unfold g. split; [rewrite mean_plus, (proj1 (R x x Hx Hx)), M by exact Hx; ring|].
    rewrite (spread_plus_l L (fun a => err a x)), !(spread_plus_r L _ (fun a => err a y)), (U x y Hx Hy), (spread_sym L (fun a => w a x)), (U y x Hy Hx).
    rewrite C by assumption. rewrite (proj2 (R x y Hx Hy)). unfold diffused. ring. }
  clear C U M R.
  assert (Q : forall x, In x (n_names b) -> exists c z, In z (n_names b) /\ forall f, pushed dt f x = f x + c * f z).
  { intros x Hx. destruct x as [k| | | | | |]; try (exists 0; eexists; split; [exact Hx|]; intros f; cbn [pushed]; ring).
    cbn [pushed]. destruct (Nat.ltb_spec k 3); [|exists 0, (NBody k); split; [exact Hx|]; intros f; ring].
    exists dt, (NBody (k + 3)). split; [apply K1; lia|]. reflexivity. }
  intros x y Hx Hy. cbn [n_names n_cov nm_windows] in *.
  destruct (Q x Hx) as (c1 & z1 & I1 & Q1), (Q y Hy) as (c2 & z2 & I2 & Q2).
  rewrite (mean_ext L _ (fun a => g a x + c1 * g a z1)) by (intros a; rewrite P, Q1; reflexivity).
  rewrite (spread_ext L _ (fun a => g a x + c1 * g a z1) _ (fun a => g a y + c2 * g a z2)) by (intros a; rewrite P, ?Q1, ?Q2; reflexivity).
  split; [rewrite mean_plus, mean_scal, (proj1 (G x x Hx Hx)), (proj1 (G z1 z1 I1 I1)); ring|].
  rewrite Q1, !Q2. rewrite (spread_plus_l L (fun a => g a x)), !(spread_plus_r L _ (fun a => g a y)), !(spread_scal_l L c1), !(spread_scal_r L c2).
  rewrite !(fun u v Hu Hv => proj2 (G u v Hu Hv)) by assumption. ring.
Qed.
Lemma fine_predict : forall b t err err', fine b err -> Rltb t (n_time b) = false ->
  (if n_gravity b then drifted L (n_names b) (t - n_time b) (n_rate b) err err' else err' = err) -> fine (nm_predict b t) err'.
Proof.
  intros b t err err' F E D. unfold nm_predict. rewrite E. destruct (n_gravity b).
  - eapply fine_same; [reflexivity|reflexivity|reflexivity|]. apply (fine_drift _ _ _ _ F D).
  - subst err'. eapply fine_same; [reflexivity|reflexivity|reflexivity|exact F].
Qed.
Lemma next_predict : forall b t, n_next (nm_predict b t) = n_next b.
Proof. intros b t. unfold nm_predict. destruct (Rltb t (n_time b)); [reflexivity|]. destruct (n_gravity b); reflexivity. Qed.

Lemma fine_measured : forall b m H N err err', chances L -> fine b err -> measured L b m H N err err' -> fine (nm_measure b m H N) err'.
Proof.
  intros b m H N err err' W [K R] [S [v [NV G]]]. split; [exact K|]. intros x y Hx Hy.
  destruct (measured_spread L b m H err v N (ent N) W R NV S err' G x y Hx Hy) as [M C]. split; [exact M|].
  rewrite C. rewrite rsum_0; [ring|]. intros i _. apply rsum_0. intros j _. ring.
Qed.

Ltac same F := eapply fine_same; [reflexivity|reflexivity|reflexivity|]; exact F.
Lemma step_fine : forall mode w b c err err', chances L -> fine b err -> moved L mode w b c err err' -> fine (nm_step mode w b c) err'.
Proof.
  intros mode w b c err err' W F M. destruct c as [o|H jac res noise]; cbn [moved nm_step] in *; [|apply (fine_measured _ _ _ _ _ _ W F M)].
  assert (NC : forall n f l, In l (ncopies n f) -> (forall k, match f k with NClone _ _ _ => False | _ => True end) -> match l with NClone _ _ _ => False | _ => True end).
  { intros n f l Hl Hf. unfold ncopies in Hl. apply in_map_iff in Hl. destruct Hl as [k [<- _]]. apply Hf. }
  assert (NIL : forall x : name, In x [] -> match x with NClone _ _ _ => False | _ => True end) by (intros x []).
  destruct o; try (subst err'; same F).
  - unfold nm_imu. destruct (known id (n_imus b)); [subst err'; exact F|]. eapply fine_same; [reflexivity|reflexivity|reflexivity|].
    eapply fine_joined; [|exact F|exact M]. intros x Hx. unfold imu_names in Hx. apply in_app_or in Hx.
    destruct Hx as [Hx|Hx]; [destruct (i_ext st)|destruct (i_int st)]; first [destruct Hx; fail|eapply NC; [exact Hx|intros; exact I]].
  - unfold nm_gps. destruct (known id (n_gpss b)); [subst err'; exact F|]. eapply fine_same; [reflexivity|reflexivity|reflexivity|].
    eapply fine_joined; [|exact F|exact M]. intros x Hx. unfold gps_names in Hx. destruct (g_ext st); first [destruct Hx; fail|eapply NC; [exact Hx|intros; exact I]].
  - unfold nm_cam. destruct (known id (n_cams b)); [subst err'; exact F|]. eapply fine_same; [reflexivity|reflexivity|reflexivity|].
    eapply fine_joined; [|exact F|exact M]. intros x Hx. unfold cam_names in Hx. destruct (c_ext st); first [destruct Hx; fail|eapply NC; [exact Hx|intros; exact I]].
  - unfold nm_fid. destruct (known (f_id st) (n_fids b)); [subst err'; exact F|]. eapply fine_same; [reflexivity|reflexivity|reflexivity|].
    eapply fine_joined; [|exact F|exact M]. intros x Hx. unfold fid_names in Hx. destruct (f_ext st); first [destruct Hx; fail|eapply NC; [exact Hx|intros; exact I]].
  - destruct (Rltb t (n_time b)) eqn:E; [subst err'; exact F|]. destruct M as [err1 [D S]].
    eapply fine_settled; [apply (fine_predict b t err err1 F E D)|]. destruct mode; cbn [settled] in *; rewrite ?next_predict; exact S.
  - unfold nm_frame. destruct (match mode with AAll => true | APrimary => (cam =? n_primary b)%nat | _ => false end); [|subst err'; exact F].
    cbv zeta. eapply fine_same; [reflexivity|reflexivity|reflexivity|]. destruct (n_max b <=? n_next b cam - n_first b cam)%nat.
    + eapply fine_clone; [apply fine_drop; exact F|exact M].
    + eapply fine_clone; [exact F|exact M].
  - apply (fine_settled mode w b err err' F M).
  - subst err'. destruct (n_started b); [exact F|same F].
Qed.

Lemma run_fine : forall mode l b err err', chances L -> fine b err -> lives L mode b err l err' -> fine (nm_run mode b l) err'.
Proof.
  intros mode l. induction l as [|[c w] t IH]; intros b err err' W F H; inversion H; subst; [exact F|].
  unfold nm_run. cbn [fold_left fst snd]. eapply IH; [exact W| |eassumption]. eapply step_fine; eassumption.
Qed.
Lemma init_fine : forall q err, initial L err -> fine (nm_init q) err.
Proof.
  intros q err H. split; [split|].
  - intros k Hk. cbn [n_names nm_init]. unfold ncopies. apply in_map. apply in_seq. lia.
  - intros cam m k I. cbn [n_names nm_init] in I. unfold ncopies in I. apply in_map_iff in I. destruct I as [j [E _]]. discriminate.
  - intros x y Hx Hy. cbn [n_names nm_init] in *. unfold ncopies in *. apply in_map_iff in Hx. apply in_map_iff in Hy.
    destruct Hx as [j [<- Hj]], Hy as [k [<- Hk]]. apply in_seq in Hj. apply in_seq in Hk. destruct (H j k) as [M S]; [lia|lia|].
    split; [exact M|]. rewrite S. cbn [n_cov nm_init]. destruct (name_dec (NBody j) (NBody k)) as [E|E]; destruct (Nat.eqb_spec j k) as [E'|E']; try reflexivity; congruence.
Qed.
End Steps.
