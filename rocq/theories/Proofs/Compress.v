(** Givens compression of stacked measurements. *)
From Coq Require Import Reals List Arith Bool Lia Lra.
From Verif Require Import Base.Res Base.Mat Base.RSum Base.LinAlg Base.RDec Base.RMat Base.Geom
  Model.TypeHelper Model.QR Model.MathHelper.
Import ListNotations.
Open Scope R_scope.

(** Inner product of column [a] of [A] and column [b] of [B]. *)
Definition ip (m : nat) (A B : fmat) (a b : nat) : R := rsum m (fun i => A i a * B i b).

Lemma rsum_two : forall m r f g, (S r < m)%nat -> (forall i, (i < m)%nat -> i <> r -> i <> S r -> f i = g i) ->
  f r + f (S r) = g r + g (S r) -> rsum m f = rsum m g.
Proof.
  intros m r f g Hr H E.
  apply Rminus_diag_uniq. rewrite <- rsum_minus.
  assert (K : forall k, (k <= m)%nat -> rsum k (fun i => f i - g i) =
     if Nat.leb k r then 0 else if Nat.leb k (S r) then f r - g r else 0).
  { induction k; intros Hk; [reflexivity|]. cbn [rsum]. rewrite IHk by lia.
    destruct (Nat.leb_spec (S k) r), (Nat.leb_spec k r), (Nat.leb_spec k (S r)), (Nat.leb_spec (S k) (S r)); try lia.
    - rewrite H by lia. ring.
    - assert (k = r) by lia. subst. ring.
    - assert (k = S r) by lia. subst. lra.
    - rewrite H by lia. ring. }
  rewrite K by lia. destruct (Nat.leb_spec m r), (Nat.leb_spec m (S r)); try lia. reflexivity.
Qed.

Lemma makeGivens_spec : forall p q c s, makeGivens p q = (c, s) ->
  c * c + s * s = 1 /\ s * p + c * q = 0.
Proof.
  intros p q c s H. unfold makeGivens in H.
  destruct (Reqb q 0) eqn:Eq.
  { apply Reqb_spec in Eq. subst q. destruct (Rltb p 0); injection H as <- <-; split; ring. }
  apply Reqb_false in Eq. destruct (Reqb p 0) eqn:Ep.
  { apply Reqb_spec in Ep. subst p. destruct (Rltb q 0); injection H as <- <-; split; ring. }
  apply Reqb_false in Ep.
  destruct (Rltb (Rabs q) (Rabs p)); cbv zeta in H.
  - set (t := q / p) in *. assert (T : 0 < 1 + t * t) by nra.
    pose proof (sqrt_lt_R0 _ T) as U. pose proof (sqrt_sqrt (1 + t * t) (Rlt_le _ _ T)) as UU.
    set (u0 := sqrt (1 + t * t)) in *. clearbody u0.
    set (u := if Rltb p 0 then - u0 else u0) in *.
    assert (K : u * u = 1 + t * t /\ u <> 0) by (unfold u; destruct (Rltb p 0); split; nra). clearbody u.
    destruct K as [K1 K2]. injection H as <- <-.
    split; [|unfold t; field; auto].
    replace (1 / u * (1 / u) + - t * (1 / u) * (- t * (1 / u))) with ((1 + t * t) / (u * u)) by (field; auto).
    rewrite K1. field. lra.
  - set (t := p / q) in *. assert (T : 0 < 1 + t * t) by nra.
    pose proof (sqrt_lt_R0 _ T) as U. pose proof (sqrt_sqrt (1 + t * t) (Rlt_le _ _ T)) as UU.
    set (u0 := sqrt (1 + t * t)) in *. clearbody u0.
    set (u := if Rltb q 0 then - u0 else u0) in *.
    assert (K : u * u = 1 + t * t /\ u <> 0) by (unfold u; destruct (Rltb q 0); split; nra). clearbody u.
    destruct K as [K1 K2]. injection H as <- <-.
    split; [|unfold t; field; auto].
    replace (- t * - (1 / u) * (- t * - (1 / u)) + - (1 / u) * - (1 / u)) with ((1 + t * t) / (u * u)) by (field; auto).
    rewrite K1. field. lra.
Qed.

(** A rotation of all columns. *)
Definition rot_all (r : nat) (c s : R) (A : fmat) : fmat := fun a b =>
  if Nat.eqb a r then c * A r b - s * A (S r) b
  else if Nat.eqb a (S r) then s * A r b + c * A (S r) b
  else A a b.

Lemma rot_all_ip : forall m r c s A B a b, (S r < m)%nat -> c * c + s * s = 1 ->
  ip m (rot_all r c s A) (rot_all r c s B) a b = ip m A B a b.
Proof.
  intros m r c s A B a b Hr H. unfold ip. apply rsum_two with (r := r); [exact Hr| |].
  - intros i _ H1 H2. unfold rot_all. rewrite !(proj2 (Nat.eqb_neq _ _)) by auto. reflexivity.
  - unfold rot_all. rewrite !Nat.eqb_refl. rewrite !(proj2 (Nat.eqb_neq (S r) r)) by lia.
    assert (E : c * c = 1 - s * s) by lra. ring [E].
Qed.

(** Zeros below the diagonal in the first [j] columns. *)
Definition below (m j : nat) (A : fmat) : Prop :=
  forall i b, (b < j)%nat -> (b < i < m)%nat -> A i b = 0.
(** Zeros in column [j] below row [k]. *)
Definition below_col (m j k : nat) (A : fmat) : Prop :=
  forall i, (k < i < m)%nat -> A i j = 0.

Lemma rot_rows_all : forall m j r c s A a b, below m j A -> (j <= r)%nat -> (S r < m)%nat ->
  rot_rows r j c s A a b = rot_all r c s A a b.
Proof.
  intros m j r c s A a b HB Hj Hr. unfold rot_rows, rot_all.
  destruct (Nat.ltb_spec b j); [|reflexivity].
  destruct (Nat.eqb_spec a r); [subst a; rewrite (HB r b), (HB (S r) b) by lia; ring|].
  destruct (Nat.eqb_spec a (S r)); [subst a; rewrite (HB r b), (HB (S r) b) by lia; ring|]. reflexivity.
Qed.
Lemma rot_rows_0 : forall r c s A a b, rot_rows r 0 c s A a b = rot_all r c s A a b.
Proof. intros. reflexivity. Qed.

(** What every step keeps: the inner products between all columns of the
    Jacobian and the residual. *)
Definition keeps (m : nat) (X Y : fmat * fmat) : Prop :=
  (forall a b, ip m (fst X) (fst X) a b = ip m (fst Y) (fst Y) a b) /\
  (forall a b, ip m (fst X) (snd X) a b = ip m (fst Y) (snd Y) a b) /\
  (forall a b, ip m (snd X) (snd X) a b = ip m (snd Y) (snd Y) a b).

Lemma keeps_refl : forall m X, keeps m X X.
Proof. intros. repeat split; reflexivity. Qed.
Lemma keeps_trans : forall m X Y Z, keeps m X Y -> keeps m Y Z -> keeps m X Z.
Proof. intros m X Y Z [A [B C]] [D [E F]]. repeat split; intros; [rewrite A|rewrite B|rewrite C]; auto. Qed.

Lemma ip_ext : forall m A A' B B' a b, (forall i, (i < m)%nat -> A i a = A' i a) ->
  (forall i, (i < m)%nat -> B i b = B' i b) -> ip m A B a b = ip m A' B' a b.
Proof. intros. unfold ip. apply rsum_ext. intros i Hi. rewrite H, H0 by auto. reflexivity. Qed.

Lemma givens_step_ok : forall m j r X, below m j (fst X) -> below_col m j (S r) (fst X) ->
  (j <= r)%nat -> (S r < m)%nat ->
  keeps m (givens_step j r X) X /\ below m j (fst (givens_step j r X)) /\ below_col m j r (fst (givens_step j r X)).
Proof.
  intros m j r [H res] HB HC Hj Hr. cbn [fst snd] in *. unfold givens_step.
  destruct (makeGivens (H r j) (H (S r) j)) as [c s] eqn:EG.
  destruct (makeGivens_spec _ _ _ _ EG) as [U Z]. cbn [fst snd].
  assert (E : forall a b, rot_rows r j c s H a b = rot_all r c s H a b) by (intros; apply rot_rows_all with m; auto).
  split; [|split].
  - repeat split; cbn [fst snd]; intros a b.
    + rewrite (ip_ext m _ (rot_all r c s H) _ (rot_all r c s H)) by (intros; apply E). apply rot_all_ip; auto.
    + rewrite (ip_ext m _ (rot_all r c s H) _ (rot_all r c s res)) by (intros; try apply E; apply rot_rows_0). apply rot_all_ip; auto.
    + rewrite (ip_ext m _ (rot_all r c s res) _ (rot_all r c s res)) by (intros; apply rot_rows_0). apply rot_all_ip; auto.
  - intros i b Hb Hi. unfold rot_rows. rewrite (proj2 (Nat.ltb_lt b j)) by auto. apply HB; auto.
  - intros i Hi. rewrite E. unfold rot_all.
    destruct (Nat.eqb_spec i r); [lia|]. destruct (Nat.eqb_spec i (S r)); [exact Z|]. apply HC. lia.
Qed.

Lemma givens_col_loop : forall k m j X, below m j (fst X) -> (j + k < m)%nat ->
  below_col m j (j + k) (fst X) ->
  let Y := fold_left (fun acc r => givens_step j r acc) (rev (seq j k)) X in
  keeps m Y X /\ below m j (fst Y) /\ below_col m j j (fst Y).
Proof.
  induction k; intros m j X HB Hk HC; cbv zeta.
  - cbn. rewrite Nat.add_0_r in HC. split; [apply keeps_refl|auto].
  - rewrite seq_S, rev_app_distr. cbn [rev app fold_left].
    destruct (givens_step_ok m j (j + k) X HB) as [K1 [K2 K3]]; [|lia|lia|].
    + replace (S (j + k)) with (j + S k)%nat by lia. exact HC.
    + destruct (IHk m j (givens_step j (j + k) X) K2 ltac:(lia) K3) as [L1 [L2 L3]].
      split; [eapply keeps_trans; [exact L1|exact K1]|auto].
Qed.

Lemma givens_col_ok : forall m j X, below m j (fst X) -> (j < m)%nat ->
  keeps m (givens_col m j X) X /\ below m (S j) (fst (givens_col m j X)).
Proof.
  intros m j X HB Hj. unfold givens_col.
  destruct (givens_col_loop (m - 1 - j) m j X HB) as [K1 [K2 K3]]; [lia| |].
  - intros i Hi. lia.
  - split; [exact K1|]. intros i b Hb Hi. destruct (Nat.eq_dec b j) as [->|Nb].
    + apply K3. lia.
    + apply K2; lia.
Qed.

Lemma givens_all_ok : forall n m X, (n <= m)%nat ->
  keeps m (givens_all m n X) X /\ below m n (fst (givens_all m n X)).
Proof.
  intros n m X Hn. unfold givens_all. revert Hn. induction n; intros Hn.
  - cbn. split; [apply keeps_refl|]. intros i b Hb. lia.
  - rewrite seq_S, fold_left_app. cbn [fold_left plus].
    destruct IHn as [I1 I2]; [lia|]. set (Y := fold_left _ _ X) in *.
    destruct (givens_col_ok m n Y I2) as [K1 K2]; [lia|].
    split; [eapply keeps_trans; [exact K1|exact I1]|exact K2].
Qed.

(** *** Which rows survive *)
Lemma live_row_true : forall n H i, live_row n H i = true <->
  exists j, (j < n)%nat /\ 1 / 1000000000 < Rabs (H i j).
Proof.
  intros n H i. unfold live_row. rewrite existsb_exists. split.
  - intros [j [Hj E]]. apply in_seq in Hj. apply Rltb_spec in E. exists j. split; [lia|exact E].
  - intros [j [Hj E]]. exists j. split; [apply in_seq; lia|apply Rltb_spec; exact E].
Qed.

Lemma dead_below : forall m n H i, below m n H -> (n <= i < m)%nat -> live_row n H i = false.
Proof.
  intros m n H i HB Hi. destruct (live_row n H i) eqn:E; [|reflexivity]. exfalso.
  apply live_row_true in E. destruct E as [j [Hj E]]. rewrite HB in E by lia. rewrite Rabs_R0 in E. lra.
Qed.

Lemma filter_seq_prefix : forall k m (p : nat -> bool), (k <= m)%nat ->
  (forall i, (i < k)%nat -> p i = true) -> (forall i, (k <= i < m)%nat -> p i = false) ->
  filter p (seq 0 m) = seq 0 k.
Proof.
  intros k m p Hk H1 H2. replace m with (k + (m - k))%nat by lia. rewrite seq_app, filter_app.
  replace (filter p (seq 0 k)) with (seq 0 k).
  - replace (filter p (seq (0 + k) (m - k))) with (@nil nat); [apply app_nil_r|].
    assert (G : forall q s, (forall i, (s <= i < s + q)%nat -> p i = false) -> filter p (seq s q) = []).
    { induction q; intros s Hs; [reflexivity|]. cbn. rewrite Hs by lia. apply IHq. intros; apply Hs; lia. }
    symmetry. apply G. intros i Hi. apply H2. lia.
  - assert (G : forall q s, (forall i, (s <= i < s + q)%nat -> p i = true) -> filter p (seq s q) = seq s q).
    { induction q; intros s Hs; [reflexivity|]. cbn. rewrite Hs by lia. f_equal. apply IHq. intros; apply Hs; lia. }
    symmetry. apply G. intros i Hi. apply H1. lia.
Qed.

(** *** Back substitution *)
Lemma back_subst : forall k A (b : nat -> R),
  (forall i j, (j < i < k)%nat -> A i j = 0) -> (forall i, (i < k)%nat -> A i i <> 0) ->
  exists x, forall i, (i < k)%nat -> rsum k (fun l => A i l * x l) = b i.
Proof.
  induction k; intros A b HU HD; [exists (fun _ => 0); intros; lia|].
  set (xk := b k / A k k).
  destruct (IHk A (fun i => b i - A i k * xk)) as [x Hx]; [intros; apply HU; lia|intros; apply HD; lia|].
  exists (fun l => if Nat.eqb l k then xk else x l). intros i Hi. cbn [rsum].
  rewrite Nat.eqb_refl.
  rewrite (rsum_ext k _ (fun l => A i l * x l)).
  2:{ intros l Hl. rewrite (proj2 (Nat.eqb_neq l k)) by lia. reflexivity. }
  destruct (Nat.eq_dec i k) as [->|N].
  - rewrite rsum_0. + unfold xk. field. apply HD. lia.
    + intros l Hl. rewrite HU by lia. ring.
  - rewrite Hx by lia. ring.
Qed.

Lemma gram_sq : forall m n (A : fmat) x, qf n (gram m A) x = rsum m (fun i => Rsqr (rsum n (fun j => A i j * x j))).
Proof.
  intros m n A x. rewrite qf_expand. unfold gram, mm, tr.
  rewrite (rsum_ext n _ (fun a => rsum n (fun b => rsum m (fun i => x a * (A i a * A i b) * x b)))).
  2:{ intros a _. apply rsum_ext. intros b _. rewrite <- rsum_scal_l, <- rsum_scal_r. reflexivity. }
  rewrite (rsum_ext n _ (fun a => rsum m (fun i => rsum n (fun b => x a * (A i a * A i b) * x b)))).
  2:{ intros a _. apply rsum_swap. }
  rewrite rsum_swap. apply rsum_ext. intros i _. unfold Rsqr. rewrite <- rsum_scal_l.
  apply rsum_ext. intros a _. rewrite <- rsum_scal_r. apply rsum_ext. intros. ring.
Qed.

(** Length of a coefficient vector. *)
Definition norm2 (n : nat) (x : nat -> R) : R := rsum n (fun i => x i * x i).

Lemma diag_big : forall n m (A : fmat) c, (n <= m)%nat -> 0 < c -> below m n A ->
  (forall x, c * norm2 n x <= qf n (gram m A) x) -> forall i, (i < n)%nat -> c <= A i i * A i i.
Proof.
  intros n m A c Hn Hc HB HG i. induction i as [i IH] using lt_wf_ind. intros Hi.
  destruct (back_subst i A (fun k => - A k i)) as [x Hx].
  - intros a b Hab. apply HB; lia.
  - intros a Ha E. specialize (IH a Ha ltac:(lia)). rewrite E in IH. lra.
  - set (y := fun l => if Nat.ltb l i then x l else if Nat.eqb l i then 1 else 0).
    assert (S1 : forall a f, (forall l, (l < n)%nat -> (i < l)%nat -> f l = 0) ->
              rsum n f = rsum i f + f i + 0 * a).
    { intros a f Hf. replace n with (S i + (n - S i))%nat by lia. rewrite rsum_split. cbn [rsum].
      rewrite (rsum_0 (n - S i)); [ring|]. intros l Hl. apply Hf; lia. }
    assert (Y1 : 1 <= norm2 n y).
    { unfold norm2. rewrite (S1 0). 2:{ intros l H1 H2. unfold y. rewrite (proj2 (Nat.ltb_ge l i)), (proj2 (Nat.eqb_neq l i)) by lia. ring. }
      unfold y at 3 4. rewrite Nat.ltb_irrefl, Nat.eqb_refl.
      pose proof (rsum_nonneg i (fun l => y l * y l)). assert (0 <= rsum i (fun l => y l * y l)) by (apply H; intros; nra). lra. }
    assert (Y2 : qf n (gram m A) y = A i i * A i i).
    { rewrite gram_sq.
      assert (RY : forall a, (a < m)%nat -> rsum n (fun j => A a j * y j) = if Nat.eqb a i then A i i else 0).
      { intros a Ha. rewrite (S1 0). 2:{ intros l H1 H2. unfold y. rewrite (proj2 (Nat.ltb_ge l i)), (proj2 (Nat.eqb_neq l i)) by lia. ring. }
        rewrite (rsum_ext i _ (fun l => A a l * x l)).
        2:{ intros l Hl. unfold y. rewrite (proj2 (Nat.ltb_lt l i)) by lia. reflexivity. }
        unfold y. rewrite Nat.ltb_irrefl, Nat.eqb_refl.
        destruct (Nat.eqb_spec a i) as [->|N].
        - rewrite rsum_0; [ring|]. intros l Hl. rewrite HB by lia. ring.
        - destruct (lt_dec a i) as [L|L].
          + rewrite Hx by lia. ring.
          + rewrite (HB a i) by lia. rewrite rsum_0; [ring|]. intros l Hl. rewrite HB by lia. ring. }
      rewrite (rsum_single m i).
      - rewrite RY by lia. rewrite Nat.eqb_refl. unfold Rsqr. reflexivity.
      - lia.
      - intros a Ha Na. rewrite RY by lia. rewrite (proj2 (Nat.eqb_neq a i)) by auto. unfold Rsqr. ring. }
    specialize (HG y). rewrite Y2 in HG. nra.
Qed.

Lemma ip_top : forall m k (A : fmat) (B : fmat) a b, (k <= m)%nat ->
  ip m A B a b = ip k A B a b + rsum (m - k) (fun i => A (k + i)%nat a * B (k + i)%nat b).
Proof. intros. unfold ip. replace m with (k + (m - k))%nat at 1 by lia. apply rsum_split. Qed.

Lemma filter_length_le : forall A (p : A -> bool) l, (length (filter p l) <= length l)%nat.
Proof. induction l as [|x t IH]; cbn; [lia|]. destruct (p x); cbn; lia. Qed.

(** *** The statements *)
Lemma compress_fat : forall J r, (nr J < nc J)%nat -> CompressMeasurements J r = OK (J, r).
Proof. intros J r H. unfold CompressMeasurements. rewrite (proj2 (Nat.leb_gt _ _)) by exact H. reflexivity. Qed.

Lemma compress_ok : forall J r, (nc J <= nr J)%nat -> nr r = nr J -> nc r = 1%nat ->
  exists H q, givens_all (nr J) (nc J) (ent J, ent r) = (H, q) /\
  CompressMeasurements J r =
    OK (mkmat (length (filter (live_row (nc J) H) (seq 0 (nr J)))) (nc J) H,
        mkmat (length (filter (live_row (nc J) H) (seq 0 (nr J)))) 1 q).
Proof.
  intros J r H1 H2 H3. destruct (givens_all (nr J) (nc J) (ent J, ent r)) as [H q] eqn:E.
  exists H, q. split; [reflexivity|]. unfold CompressMeasurements.
  rewrite (proj2 (Nat.leb_le _ _)) by exact H1. rewrite H2, H3, !Nat.eqb_refl. cbn [andb guard bind]. rewrite E. reflexivity.
Qed.

Lemma compress_preserves : forall J r c, (nc J <= nr J)%nat -> nr r = nr J -> nc r = 1%nat ->
  (1 / 1000000000) * (1 / 1000000000) < c ->
  (forall x, c * norm2 (nc J) x <= qf (nc J) (gram (nr J) (ent J)) x) ->
  exists J' r', CompressMeasurements J r = OK (J', r') /\
    nr J' = nc J /\ nc J' = nc J /\ nr r' = nc J /\ nc r' = 1%nat /\
    eqm (nc J) (nc J) (gram (nr J') (ent J')) (gram (nr J) (ent J)) /\
    eqm (nc J) 1 (mm (nr J') (tr (ent J')) (ent r')) (mm (nr J) (tr (ent J)) (ent r)).
Proof.
  intros J r c H1 H2 H3 Hc HG.
  destruct (compress_ok J r H1 H2 H3) as [H [q [E ->]]].
  destruct (givens_all_ok (nc J) (nr J) (ent J, ent r) H1) as [[K1 [K2 _]] K3]. rewrite E in *. cbn [fst snd] in *.
  assert (D : forall i, (i < nc J)%nat -> c <= H i i * H i i).
  { apply diag_big with (m := nr J); [exact H1|lra|exact K3|].
    intros x. specialize (HG x). rewrite (qf_ext (nc J) (gram (nr J) H) (gram (nr J) (ent J)) x x); [exact HG| |auto].
    intros a b _ _. exact (K1 a b). }
  assert (F : filter (live_row (nc J) H) (seq 0 (nr J)) = seq 0 (nc J)).
  { apply filter_seq_prefix; [exact H1| |].
    - intros i Hi. apply live_row_true. exists i. split; [exact Hi|].
      specialize (D i Hi). destruct (Rlt_dec (1 / 1000000000) (Rabs (H i i))) as [L|L]; [exact L|exfalso].
      apply Rnot_lt_le in L. assert (Q : Rabs (H i i) * Rabs (H i i) = H i i * H i i) by (rewrite <- Rabs_mult; apply Rabs_right; nra).
      pose proof (Rabs_pos (H i i)). nra.
    - intros i Hi. apply dead_below with (nr J); auto. }
  rewrite F, seq_length.
  assert (Z : forall (B : fmat) a b, (a < nc J)%nat -> ip (nc J) H B a b = ip (nr J) H B a b).
  { intros B a b Ha. rewrite (ip_top (nr J) (nc J) H B a b H1). rewrite rsum_0; [ring|].
    intros i Hi. rewrite K3 by lia. ring. }
  eexists _, _. split; [reflexivity|]. cbn [nr nc ent]. repeat split; auto.
  - intros a b Ha Hb. transitivity (ip (nr J) H H a b); [apply Z; auto|apply K1].
  - intros a b Ha Hb. transitivity (ip (nr J) H q a b); [apply Z; auto|apply K2].
Qed.

Lemma compress_never_invents : forall J r J' r', nr r = nr J -> nc r = 1%nat ->
  CompressMeasurements J r = OK (J', r') ->
  nc J' = nc J /\ nr r' = nr J' /\ (nr J' <= nr J)%nat /\
  psd (nc J) (msub (gram (nr J) (ent J)) (gram (nr J') (ent J'))).
Proof.
  intros J r J' r' H2 H3 HC. destruct (le_lt_dec (nc J) (nr J)) as [H1|H1].
  - destruct (compress_ok J r H1 H2 H3) as [H [q [E HE]]]. rewrite HE in HC. injection HC as <- <-. cbn [nr nc ent].
    set (k := length _). assert (Hk : (k <= nr J)%nat).
    { unfold k. eapply Nat.le_trans; [apply filter_length_le|]. rewrite seq_length. lia. }
    repeat split; auto.
    + intros i j _ _. unfold msub, gram, mm, tr. f_equal; apply rsum_ext; intros; ring.
    + destruct (givens_all_ok (nc J) (nr J) (ent J, ent r) H1) as [[K1 _] _]. rewrite E in *. cbn [fst] in K1.
      assert (P : psd (nc J) (gram (nr J - k) (fun i j => H (k + i)%nat j))) by apply psd_gram.
      eapply (psd_ext (nc J)) in P; [exact (proj2 P)|].
      intros a b _ _. unfold msub.
      change (gram (nr J) (ent J) a b) with (ip (nr J) (ent J) (ent J) a b). rewrite <- K1.
      rewrite (ip_top (nr J) k H H a b Hk). unfold gram, mm, tr, ip. ring.
  - rewrite compress_fat in HC by exact H1. injection HC as <- <-. repeat split; auto.
    + intros i j _ _. unfold msub, gram, mm, tr. f_equal; apply rsum_ext; intros; ring.
    + assert (P := psd_zm (nc J)). eapply (psd_ext (nc J)) in P; [exact (proj2 P)|].
      intros a b _ _. unfold msub, zm. ring.
Qed.

(** One negligible row above an informative one. *)
Definition lossy_J : mat R := mkmat 2 2 (fun i j => if (Nat.eqb i 1 && Nat.eqb j 1)%bool then 1 else 0).
Definition lossy_r : mat R := mkmat 2 1 (fun i _ => if Nat.eqb i 1 then 1 else 0).

Lemma compress_loses : exists J' r', CompressMeasurements lossy_J lossy_r = OK (J', r') /\
  gram (nr lossy_J) (ent lossy_J) 1%nat 1%nat = 1 /\ gram (nr J') (ent J') 1%nat 1%nat = 0 /\
  mm (nr lossy_J) (tr (ent lossy_J)) (ent lossy_r) 1%nat 0%nat = 1 /\ mm (nr J') (tr (ent J')) (ent r') 1%nat 0%nat = 0.
Proof.
  destruct (compress_ok lossy_J lossy_r) as [H [q [E HE]]]; [cbn; lia|reflexivity|reflexivity|].
  rewrite HE. clear HE. cbn [nr nc lossy_J] in *. unfold givens_all, givens_col in E. cbn [seq fold_left rev app Nat.sub] in E.
  unfold givens_step in E. cbn [ent lossy_J lossy_r] in E. cbn [Nat.eqb andb] in E.
  unfold makeGivens in E. rewrite (proj2 (Reqb_spec 0 0)), (Rltb_ff 0 0) in E by (try reflexivity; lra).
  injection E as <- <-.
  set (H := rot_rows 0 0 1 0 (ent lossy_J)). set (q := rot_rows 0 0 1 0 (ent lossy_r)).
  change (fun i j : nat => if (Nat.eqb i 1 && Nat.eqb j 1)%bool then 1 else 0) with (ent lossy_J).
  assert (L0 : live_row 2 H 0 = false).
  { destruct (live_row 2 H 0) eqn:L; [|reflexivity]. exfalso. apply live_row_true in L. destruct L as [j [Hj L]].
    assert (Z : H 0%nat j = 0). { unfold H, rot_rows. cbn. ring. } rewrite Z, Rabs_R0 in L. lra. }
  assert (L1 : live_row 2 H 1 = true).
  { apply live_row_true. exists 1%nat. split; [lia|]. replace (H 1%nat 1%nat) with 1; [rewrite Rabs_R1; lra|]. unfold H, rot_rows. cbn. ring. }
  exists (mkmat 1 2 H), (mkmat 1 1 q). split.
  - cbn [filter seq]. fold H. rewrite L0, L1. reflexivity.
  - cbn [nr ent]. unfold gram, mm, tr, H, q, rot_rows, rsum. cbn. repeat split; ring.
Qed.
