(** Positive kernels over names. *)
From Coq Require Import Reals List Arith Bool Lia Lra.
From Verif Require Import Base.Res Base.Mat Base.RDec Base.RSum Base.LinAlg Base.Inverse Base.Geom Base.AMap Model.Types Model.Ekf Model.Ops
  Spec.ByName Proofs.Chance.
Import ListNotations.
Open Scope R_scope.

Definition weights : Type := list (R * name).
Definition wsum (l : weights) (g : name -> R) : R := fold_right (fun p s => fst p * g (snd p) + s) 0 l.
Definition form (f : name -> name -> R) (l : weights) : R := wsum l (fun x => wsum l (fun y => f x y)).
Definition within (D : list name) (l : weights) : Prop := forall w x, In (w, x) l -> In x D.
Definition kpsd (D : list name) (f : name -> name -> R) : Prop := forall l, within D l -> 0 <= form f l.

Lemma wsum_nil : forall g, wsum [] g = 0.
Proof. reflexivity. Qed.
Lemma wsum_cons : forall w x l g, wsum ((w, x) :: l) g = w * g x + wsum l g.
Proof. reflexivity. Qed.
Lemma wsum_ext : forall l g h, (forall w x, In (w, x) l -> g x = h x) -> wsum l g = wsum l h.
Proof.
  induction l as [|[w x] l IH]; intros g h H; [reflexivity|]. rewrite !wsum_cons, (H w x) by (left; reflexivity).
  rewrite (IH g h); [reflexivity|]. intros w' y Hy. apply (H w'). right. exact Hy.
Qed.
Lemma wsum_app : forall l m g, wsum (l ++ m) g = wsum l g + wsum m g.
Proof. induction l as [|[w x] l IH]; intros m g; [rewrite wsum_nil; cbn [app]; ring|]. cbn [app]. rewrite !wsum_cons, IH. ring. Qed.
Lemma wsum_plus : forall l g h, wsum l (fun x => g x + h x) = wsum l g + wsum l h.
Proof. induction l as [|[w x] l IH]; intros g h; [rewrite !wsum_nil; ring|]. rewrite !wsum_cons, IH. ring. Qed.
Lemma wsum_scal : forall l c g, wsum l (fun x => c * g x) = c * wsum l g.
Proof. induction l as [|[w x] l IH]; intros c g; [rewrite !wsum_nil; ring|]. rewrite !wsum_cons, IH. ring. Qed.
Lemma wsum_zero : forall l g, (forall w x, In (w, x) l -> g x = 0) -> wsum l g = 0.
Proof. induction l as [|[w x] l IH]; intros g H; [reflexivity|]. rewrite wsum_cons, (H w x) by (left; reflexivity). rewrite IH; [ring|]. intros w' y Hy. apply (H w'). right. exact Hy. Qed.
Lemma wsum_swap : forall l m (f : name -> name -> R), wsum l (fun x => wsum m (fun y => f x y)) = wsum m (fun y => wsum l (fun x => f x y)).
Proof.
  induction l as [|[w x] l IH]; intros m f.
  - rewrite wsum_nil. symmetry. apply wsum_zero. reflexivity.
  - rewrite wsum_cons, IH, <- wsum_scal, <- wsum_plus. apply wsum_ext. intros. rewrite wsum_cons. reflexivity.
Qed.
Lemma wsum_rsum : forall l n (f : name -> nat -> R), wsum l (fun x => rsum n (f x)) = rsum n (fun i => wsum l (fun x => f x i)).
Proof.
  intros l n f. induction n as [|n IH]; cbn [rsum]; [apply wsum_zero; reflexivity|]. rewrite wsum_plus, IH. reflexivity.
Qed.
Lemma form_ext : forall D f g l, within D l -> (forall x y, In x D -> In y D -> f x y = g x y) -> form f l = form g l.
Proof. intros D f g l W H. unfold form. apply wsum_ext. intros w x Hx. apply wsum_ext. intros w' y Hy. apply H; eapply W; eassumption. Qed.
Lemma form_plus : forall f g l, form (fun x y => f x y + g x y) l = form f l + form g l.
Proof. intros f g l. unfold form. rewrite <- wsum_plus. apply wsum_ext. intros. apply wsum_plus. Qed.
Lemma form_minus : forall f g l, form (fun x y => f x y - g x y) l = form f l - form g l.
Proof.
  intros f g l. unfold form.
  rewrite (wsum_ext l _ (fun x => wsum l (fun y => f x y) + -1 * wsum l (fun y => g x y))).
  - rewrite wsum_plus, wsum_scal. ring.
  - intros w x _. rewrite <- wsum_scal, <- wsum_plus. apply wsum_ext. intros. ring.
Qed.
Lemma form_app : forall f l m, form f (l ++ m) = form f l + form f m + (wsum l (fun x => wsum m (fun y => f x y)) + wsum m (fun x => wsum l (fun y => f x y))).
Proof.
  intros f l m. unfold form. rewrite wsum_app.
  rewrite (wsum_ext l _ (fun x => wsum l (fun y => f x y) + wsum m (fun y => f x y))) by (intros; apply wsum_app).
  rewrite (wsum_ext m _ (fun x => wsum l (fun y => f x y) + wsum m (fun y => f x y))) by (intros; apply wsum_app).
  rewrite !wsum_plus. ring.
Qed.
Lemma kpsd_sub : forall D D' f, (forall x, In x D' -> In x D) -> kpsd D f -> kpsd D' f.
Proof. intros D D' f H K l W. apply K. intros w x Hx. apply H. eapply W. exact Hx. Qed.
Lemma kpsd_ext : forall D f g, (forall x y, In x D -> In y D -> f x y = g x y) -> kpsd D f -> kpsd D g.
Proof. intros D f g H K l W. rewrite <- (form_ext D f g l W H). apply K. exact W. Qed.
Lemma kpsd_plus : forall D f g, kpsd D f -> kpsd D g -> kpsd D (fun x y => f x y + g x y).
Proof. intros D f g F G l W. rewrite form_plus. specialize (F l W). specialize (G l W). lra. Qed.

(** Replacing every name by a combination of names. *)
Definition spreadout (T : name -> weights) (l : weights) : weights :=
  flat_map (fun p => map (fun q => (fst p * fst q, snd q)) (T (snd p))) l.
Lemma wsum_scaled : forall c t g, wsum (map (fun q : R * name => (c * fst q, snd q)) t) g = c * wsum t g.
Proof. intros c t g. induction t as [|[d y] t IH]; [rewrite wsum_nil; cbn [map]; rewrite wsum_nil; ring|]. cbn [map fst snd]. rewrite !wsum_cons, IH. ring. Qed.
Lemma wsum_spreadout : forall T l g, wsum (spreadout T l) g = wsum l (fun x => wsum (T x) g).
Proof.
  intros T l g. induction l as [|[w x] l IH]; [reflexivity|]. cbn [spreadout flat_map fst snd]. rewrite wsum_app, wsum_scaled.
  fold (spreadout T l). rewrite IH. reflexivity.
Qed.
Lemma form_spreadout : forall T f l, form f (spreadout T l) = form (fun x y => wsum (T x) (fun a => wsum (T y) (fun b => f a b))) l.
Proof.
  intros T f l. unfold form. rewrite wsum_spreadout. apply wsum_ext. intros w x Hx.
  rewrite (wsum_ext (T x) _ (fun a => wsum l (fun y => wsum (T y) (fun b => f a b)))).
  - apply wsum_swap.
  - intros. apply wsum_spreadout.
Qed.
Lemma within_spreadout : forall D D' T l, (forall x, In x D' -> within D (T x)) -> within D' l -> within D (spreadout T l).
Proof.
  intros D D' T l H W w x Hx. unfold spreadout in Hx. apply in_flat_map in Hx. destruct Hx as [[c y] [Hy Hx]].
  apply in_map_iff in Hx. destruct Hx as [[d z] [E Hz]]. injection E as <- <-. eapply H; [eapply W; exact Hy|exact Hz].
Qed.
Lemma kpsd_spreadout : forall D D' T f, (forall x, In x D' -> within D (T x)) -> kpsd D f ->
  kpsd D' (fun x y => wsum (T x) (fun a => wsum (T y) (fun b => f a b))).
Proof. intros D D' T f H K l W. rewrite <- form_spreadout. apply K. eapply within_spreadout; eassumption. Qed.

(** Sums of squares. *)
Lemma form_square : forall (g : name -> R) l, form (fun x y => g x * g y) l = wsum l g * wsum l g.
Proof.
  intros g l. unfold form. rewrite (wsum_ext l _ (fun x => wsum l g * g x)).
  - apply wsum_scal.
  - intros w x _. rewrite wsum_scal. ring.
Qed.
Lemma form_scal : forall c f l, form (fun x y => c * f x y) l = c * form f l.
Proof. intros c f l. unfold form. rewrite <- wsum_scal. apply wsum_ext. intros. apply wsum_scal. Qed.
Lemma form_over : forall (D : list name) (f : name -> name -> name -> R) l, form (fun x y => over D (fun z => f z x y)) l = over D (fun z => form (f z) l).
Proof.
  intros D f l. induction D as [|z D IH]; cbn.
  - unfold form. apply wsum_zero. intros. apply wsum_zero. reflexivity.
  - change (form (fun x y => f z x y + over D (fun z => f z x y)) l = form (f z) l + over D (fun z => form (f z) l)). rewrite form_plus, IH. reflexivity.
Qed.
Lemma over_nonneg : forall D f, (forall x, In x D -> 0 <= f x) -> 0 <= over D f.
Proof. induction D as [|x D IH]; intros f H; cbn; [lra|]. assert (0 <= f x) by (apply H; left; reflexivity). assert (0 <= over D f) by (apply IH; intros; apply H; right; assumption). unfold over in *. lra. Qed.
Lemma over_here : forall D x f, NoDup D -> In x D -> over D (fun z => if name_dec x z then f z else 0) = f x.
Proof.
  intros D x f N H. induction D as [|y D IH]; [destruct H|]. inversion N as [|? ? N1 N2]; subst. cbn. destruct (name_dec x y) as [->|E].
  - change (f y + over D (fun z => if name_dec y z then f z else 0) = f y). rewrite over_zero; [ring|]. intros z Hz. destruct (name_dec y z); [congruence|reflexivity].
  - destruct H as [H|H]; [congruence|]. change (0 + over D (fun z => if name_dec x z then f z else 0) = f x). rewrite IH by assumption. ring.
Qed.
Lemma kpsd_diag : forall D r, NoDup D -> (forall x, In x D -> 0 <= r x) -> kpsd D (fun x y => if name_dec x y then r x else 0).
Proof.
  intros D r N H l W.
  rewrite (form_ext D _ (fun x y => over D (fun z => r z * ((if name_dec x z then 1 else 0) * (if name_dec y z then 1 else 0)))) l W).
  - rewrite form_over. apply over_nonneg. intros z Hz. rewrite form_scal, form_square. apply Rmult_le_pos; [apply H; exact Hz|apply Rle_0_sqr].
  - intros x y Hx Hy. rewrite (over_ext D _ (fun z => if name_dec x z then r z * (if name_dec y z then 1 else 0) else 0)).
    + rewrite over_here by assumption. destruct (name_dec x y), (name_dec y x); try congruence; ring.
    + intros z _. destruct (name_dec x z); ring.
Qed.
(** A matrix at the positions of a list. *)
Lemma kpsd_block : forall l (c : fmat), psd (length l) c ->
  kpsd l (fun x y => match position x l, position y l with Some i, Some j => c i j | _, _ => 0 end).
Proof.
  intros D c [_ P] l W. set (n := length D) in *.
  set (X := fun i => wsum l (fun x => match position x D with Some k => if Nat.eqb k i then 1 else 0 | None => 0 end)).
  assert (Y : forall g, wsum l (fun x => match position x D with Some i => g i | None => 0 end) = rsum n (fun i => X i * g i)).
  { intros g. unfold X.
    rewrite (rsum_ext n _ (fun i => wsum l (fun x => (match position x D with Some k => if Nat.eqb k i then 1 else 0 | None => 0 end) * g i))).
    2:{ intros i _. rewrite Rmult_comm, <- wsum_scal. apply wsum_ext. intros. apply Rmult_comm. }
    rewrite <- wsum_rsum. apply wsum_ext. intros w x Hx. destruct (position_in x D (W w x Hx)) as [i Hi]. rewrite Hi.
    assert (B : (i < n)%nat).
    { clear -Hi. unfold n. revert i Hi. induction D as [|y D IH]; intros i Hi; cbn in Hi; [discriminate|]. destruct (name_dec x y); [injection Hi as <-; cbn; lia|].
      destruct (position x D) as [k|]; [|discriminate]. injection Hi as <-. specialize (IH k eq_refl). cbn. lia. }
    rewrite (rsum_single n i); [rewrite Nat.eqb_refl; ring|exact B|]. intros k _ Hk. destruct (Nat.eqb_spec i k); [congruence|ring]. }
  specialize (P X). rewrite qf_expand in P. eapply Rle_trans; [exact P|]. right. unfold form.
  rewrite (wsum_ext l _ (fun x => match position x D with Some i => rsum n (fun j => X j * c i j) | None => 0 end)).
  - rewrite Y. apply rsum_ext. intros i _. rewrite <- rsum_scal_l. apply rsum_ext. intros j _. ring.
  - intros w x Hx. destruct (position_in x D (W w x Hx)) as [i Hi]. rewrite Hi. rewrite <- (Y (c i)). reflexivity.
Qed.
(** Two groups that have nothing to do with each other. *)
Lemma wsum_split : forall (p : name -> bool) l g, wsum l g = wsum (filter (fun q => p (snd q)) l) g + wsum (filter (fun q => negb (p (snd q))) l) g.
Proof.
  intros p l g. induction l as [|[w x] l IH]; [cbn [filter]; rewrite !wsum_nil; ring|]. cbn [filter snd].
  destruct (p x); cbn [negb]; rewrite !wsum_cons, IH; ring.
Qed.
Lemma form_split : forall (p : name -> bool) f l, form f l =
  form f (filter (fun q => p (snd q)) l ++ filter (fun q => negb (p (snd q))) l).
Proof.
  intros p f l. unfold form. rewrite (wsum_split p l), wsum_app.
  f_equal; apply wsum_ext; intros w x _; rewrite (wsum_split p l), wsum_app; reflexivity.
Qed.
Lemma kpsd_join : forall D D' f, (forall x y, In x D -> In y D' -> ~ In y D -> f x y = 0 /\ f y x = 0) -> kpsd D f -> kpsd D' f -> kpsd (D ++ D') f.
Proof.
  intros D D' f Z K K' l W.
  set (p := fun x => if in_name_dec x D then true else false). rewrite (form_split p), form_app.
  assert (A : within D (filter (fun q => p (snd q)) l)).
  { intros w x H. apply filter_In in H. destruct H as [_ H]. unfold p in H. cbn [snd] in H. destruct (in_name_dec x D); [assumption|discriminate]. }
  assert (B : forall w x, In (w, x) (filter (fun q => negb (p (snd q))) l) -> In x D' /\ ~ In x D).
  { intros w x H. apply filter_In in H. destruct H as [H0 H]. unfold p in H. cbn [snd] in H. destruct (in_name_dec x D); [discriminate|].
    split; [|assumption]. apply W in H0. apply in_app_or in H0. tauto. }
  specialize (K _ A). assert (K2 := K' _ (fun w x H => proj1 (B w x H))).
  assert (C1 : wsum (filter (fun q => p (snd q)) l) (fun x => wsum (filter (fun q => negb (p (snd q))) l) (fun y => f x y)) = 0).
  { apply wsum_zero. intros w x Hx. apply wsum_zero. intros w' y Hy. destruct (B w' y Hy). refine (proj1 (Z x y _ _ _)); [eapply A; exact Hx|assumption|assumption]. }
  assert (C2 : wsum (filter (fun q => negb (p (snd q))) l) (fun x => wsum (filter (fun q => p (snd q)) l) (fun y => f x y)) = 0).
  { apply wsum_zero. intros w x Hx. apply wsum_zero. intros w' y Hy. destruct (B w x Hx). refine (proj2 (Z y x _ _ _)); [eapply A; exact Hy|assumption|assumption]. }
  rewrite C1, C2. lra.
Qed.
