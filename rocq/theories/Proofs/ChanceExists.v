(** Errors that live along a history exist for every history with proper
    arguments. *)
From Coq Require Import Reals List Arith Bool Lia Lra.
From Verif Require Import Base.Mat Base.RDec Base.RSum Base.LinAlg Base.Inverse Model.Types Model.Ekf Model.Ops Spec.ByName Spec.Chance Proofs.Chance.
Import ListNotations.
Open Scope R_scope.

(** *** A covariance is the square of something *)
Lemma qf_last : forall n P y, symm (S n) P ->
  qf (S n) P y = qf n P y + 2 * y n * rsum n (fun i => P i n * y i) + y n * y n * P n n.
Proof.
  intros n P y Sy. rewrite !qf_expand. cbn [rsum]. rewrite rsum_plus.
  rewrite (rsum_ext n (fun i => y i * P i n * y n) (fun i => y n * (P i n * y i))) by (intros; ring).
  rewrite (rsum_ext n (fun j => y n * P n j * y j) (fun i => y n * (P i n * y i))).
  2:{ intros i Hi. rewrite (Sy n i) by lia. ring. }
  rewrite !rsum_scal_l. ring.
Qed.
Lemma psd_less : forall n P, psd (S n) P -> psd n P.
Proof.
  intros n P [Sy Q]. split; [intros i j Hi Hj; apply Sy; lia|]. intros x.
  specialize (Q (fun k => if (k <? n)%nat then x k else 0)). rewrite qf_last in Q by exact Sy. rewrite (proj2 (Nat.ltb_ge n n)) in Q by lia.
  rewrite (qf_ext n P P x (fun k => if (k <? n)%nat then x k else 0)).
  - lra.
  - intros i j _ _. reflexivity.
  - intros i Hi. rewrite (proj2 (Nat.ltb_lt i n)) by lia. reflexivity.
Qed.
Lemma psd_diag_pos : forall n P, psd (S n) P -> 0 <= P n n.
Proof.
  intros n P [Sy Q]. specialize (Q (fun k => if (k =? n)%nat then 1 else 0)). rewrite qf_last in Q by exact Sy.
  rewrite Nat.eqb_refl in Q. rewrite (rsum_0 n) in Q. 2:{ intros i Hi. rewrite (proj2 (Nat.eqb_neq i n)) by lia. ring. }
  rewrite qf_expand, rsum_0 in Q; [lra|]. intros i Hi. apply rsum_0. intros j Hj. rewrite (proj2 (Nat.eqb_neq i n)) by lia. ring.
Qed.
Lemma psd_no_last : forall n P i, psd (S n) P -> P n n = 0 -> (i < n)%nat -> P i n = 0.
Proof.
  intros n P i [Sy Q] Z Hi.
  assert (E : forall t, 0 <= P i i + 2 * t * P i n).
  { intros t. specialize (Q (fun k => if (k =? i)%nat then 1 else if (k =? n)%nat then t else 0)). rewrite qf_last in Q by exact Sy.
    cbv beta in Q. rewrite Z, (proj2 (Nat.eqb_neq n i)), Nat.eqb_refl in Q by lia.
    rewrite (rsum_single n i) in Q; [|exact Hi|]. 2:{ intros j Hj Hji. rewrite (proj2 (Nat.eqb_neq j i)), (proj2 (Nat.eqb_neq j n)) by lia. ring. }
    rewrite Nat.eqb_refl in Q. rewrite qf_expand, (rsum_single n i) in Q; [|exact Hi|].
    2:{ intros j Hj Hji. apply rsum_0. intros k Hk. rewrite (proj2 (Nat.eqb_neq j i)), (proj2 (Nat.eqb_neq j n)) by lia. ring. }
    rewrite (rsum_single n i) in Q; [|exact Hi|]. 2:{ intros j Hj Hji. rewrite (proj2 (Nat.eqb_neq j i)), (proj2 (Nat.eqb_neq j n)) by lia. ring. }
    rewrite Nat.eqb_refl in Q. lra. }
  destruct (Req_dec (P i n) 0) as [H|H]; [exact H|]. exfalso.
  specialize (E (- (P i i + 1) / (2 * P i n))).
  replace (2 * (- (P i i + 1) / (2 * P i n)) * P i n) with (- (P i i + 1)) in E by (field; exact H). lra.
Qed.
Lemma psd_factor : forall n P, psd n P -> exists F : fmat, forall i j, (i < n)%nat -> (j < n)%nat -> P i j = rsum n (fun k => F i k * F j k).
Proof.
  induction n as [|n IH]; intros P H; [exists (fun _ _ => 0); intros; lia|].
  assert (Sy : symm (S n) P) by apply H.
  destruct (Req_dec (P n n) 0) as [Z|NZ].
  - destruct (IH P (psd_less n P H)) as [F E].
    exists (fun i k => if (i <? n)%nat then if (k <? n)%nat then F i k else 0 else 0). intros i j Hi Hj.
    destruct (Nat.eq_dec i n) as [->|Ni].
    + rewrite rsum_0. 2:{ intros k _. rewrite Nat.ltb_irrefl. ring. }
      destruct (Nat.eq_dec j n) as [->|Nj]; [exact Z|]. rewrite (Sy n j) by lia. apply (psd_no_last n P j H Z). lia.
    + destruct (Nat.eq_dec j n) as [->|Nj].
      * rewrite rsum_0. 2:{ intros k _. rewrite Nat.ltb_irrefl. ring. } apply (psd_no_last n P i H Z). lia.
      * cbn [rsum]. rewrite (E i j) by lia. rewrite Nat.ltb_irrefl. rewrite !(proj2 (Nat.ltb_lt _ n)) by lia.
        rewrite Rmult_0_l, Rplus_0_r. apply rsum_ext. intros k Hk. rewrite (proj2 (Nat.ltb_lt k n)) by lia. reflexivity.
  - assert (p : 0 < P n n) by (pose proof (psd_diag_pos n P H); lra).
    set (Q := fun i j => P i j - P i n * P j n / P n n).
    assert (HQ : psd n Q).
    { split; [intros i j Hi Hj; unfold Q; rewrite (Sy i j) by lia; field; exact NZ|]. intros x.
      set (s := rsum n (fun i => P i n * x i)).
      pose proof (proj2 H (fun k => if (k <? n)%nat then x k else - s / P n n)) as G. rewrite qf_last in G by exact Sy.
      rewrite Nat.ltb_irrefl in G.
      rewrite (rsum_ext n _ (fun i => P i n * x i)) in G by (intros i Hi; rewrite (proj2 (Nat.ltb_lt i n)) by lia; reflexivity). fold s in G.
      rewrite (qf_ext n P P _ x) in G; [|intros i j _ _; reflexivity|intros i Hi; rewrite (proj2 (Nat.ltb_lt i n)) by lia; reflexivity].
      assert (T : qf n Q x = qf n P x - s * s / P n n).
      { rewrite !qf_expand. unfold Q.
        rewrite (rsum_ext n _ (fun i => rsum n (fun j => x i * P i j * x j) - P i n * x i * s / P n n)).
        - rewrite rsum_minus. f_equal. rewrite (rsum_ext n _ (fun i => s / P n n * (P i n * x i))) by (intros; field; exact NZ).
          rewrite rsum_scal_l. fold s. field. exact NZ.
        - intros i Hi. rewrite (rsum_ext n _ (fun j => x i * P i j * x j - P i n * x i / P n n * (P j n * x j))) by (intros; field; exact NZ).
          rewrite rsum_minus, rsum_scal_l. fold s. field. exact NZ. }
      rewrite T. replace (qf n P x - s * s / P n n) with (qf n P x + 2 * (- s / P n n) * s + - s / P n n * (- s / P n n) * P n n) by (field; exact NZ). exact G. }
    destruct (IH Q HQ) as [F E].
    exists (fun i k => if (k =? n)%nat then P i n / sqrt (P n n) else if (i <? n)%nat then F i k else 0). intros i j Hi Hj. cbn [rsum].
    rewrite Nat.eqb_refl.
    assert (SQ : forall u v, u / sqrt (P n n) * (v / sqrt (P n n)) = u * v / P n n).
    { intros u v. rewrite <- (sqrt_sqrt (P n n)) at 3 by lra. field. pose proof (sqrt_lt_R0 _ p). lra. }
    rewrite SQ.
    destruct (Nat.eq_dec i n) as [->|Ni].
    + rewrite rsum_0. 2:{ intros k Hk. rewrite (proj2 (Nat.eqb_neq k n)), Nat.ltb_irrefl by lia. ring. }
      rewrite (Sy n j) by lia. field. exact NZ.
    + destruct (Nat.eq_dec j n) as [->|Nj].
      * rewrite rsum_0. 2:{ intros k Hk. rewrite (proj2 (Nat.eqb_neq k n)), Nat.ltb_irrefl by lia. ring. } field. exact NZ.
      * rewrite (rsum_ext n _ (fun k => F i k * F j k)).
        -- rewrite <- E by lia. unfold Q. field. exact NZ.
        -- intros k Hk. rewrite (proj2 (Nat.eqb_neq k n)), !(proj2 (Nat.ltb_lt _ n)) by lia. reflexivity.
Qed.

(** *** Independent variables of variance 1 *)
Definition outcome : Type := (nat * bool)%type.
Definition coins (M : nat) : law outcome :=
  flat_map (fun k => [(1 / (2 * INR M), (k, true)); (1 / (2 * INR M), (k, false))]) (seq 0 M).
Definition coin (M j : nat) (a : outcome) : R :=
  if (fst a =? j)%nat then if snd a then sqrt (INR M) else - sqrt (INR M) else 0.

Lemma mean_app : forall A (L1 L2 : law A) f, mean (L1 ++ L2) f = mean L1 f + mean L2 f.
Proof. intros A L1 L2 f. induction L1 as [|[w a] t IH]; cbn; [ring|]. rewrite IH. ring. Qed.
Lemma mean_coins : forall w M f, mean (flat_map (fun k => [(w, (k, true)); (w, (k, false))]) (seq 0 M)) f = rsum M (fun k => w * (f (k, true) + f (k, false))).
Proof.
  intros w M f. induction M as [|M IH]; [reflexivity|]. rewrite seq_S, flat_map_app, mean_app, IH. cbn. ring.
Qed.
Lemma coins_chances : forall M, (0 < M)%nat -> chances (coins M).
Proof.
  intros M HM. assert (P : 0 < INR M) by (apply lt_0_INR; exact HM). split.
  - intros w a H. unfold coins in H. apply in_flat_map in H. destruct H as [k [_ H]].
    assert (0 < 1 / (2 * INR M)) by (apply Rdiv_lt_0_compat; lra). cbn in H. destruct H as [H|[H|[]]]; injection H as <- _; lra.
  - unfold coins. rewrite mean_coins, rsum_const. field. lra.
Qed.
Lemma coin_mean : forall M j, mean (coins M) (coin M j) = 0.
Proof.
  intros M j. unfold coins. rewrite mean_coins. apply rsum_0. intros k _. unfold coin. cbn [fst snd]. destruct (k =? j)%nat; ring.
Qed.
Lemma coin_spread : forall M i j, (i < M)%nat -> (j < M)%nat -> spread (coins M) (coin M i) (coin M j) = if (i =? j)%nat then 1 else 0.
Proof.
  intros M i j Hi Hj. assert (P : 0 < INR M) by (apply lt_0_INR; lia). unfold spread. rewrite !coin_mean. unfold coins. rewrite mean_coins.
  destruct (Nat.eqb_spec i j) as [<-|NE].
  - rewrite (rsum_single M i); [|exact Hi|].
    + unfold coin. cbn [fst snd]. rewrite Nat.eqb_refl. pose proof (sqrt_sqrt (INR M)) as Q. rewrite !Rminus_0_r.
      replace (sqrt (INR M) * sqrt (INR M) + - sqrt (INR M) * - sqrt (INR M)) with (2 * (sqrt (INR M) * sqrt (INR M))) by ring. rewrite Q by lra. field. lra.
    + intros k Hk NK. unfold coin. cbn [fst snd]. rewrite (proj2 (Nat.eqb_neq k i)) by exact NK. ring.
  - apply rsum_0. intros k Hk. unfold coin. cbn [fst snd]. destruct (Nat.eqb_spec k i) as [->|]; [|ring].
    rewrite (proj2 (Nat.eqb_neq i j)) by exact NE. ring.
Qed.

Section Made.
Variable M : nat.
Definition made (U : nat) (f : outcome -> R) : Prop := exists c : nat -> R, forall a, f a = rsum U (fun j => c j * coin M j a).
Definition drawn (U n : nat) (d : nat -> R) (a : outcome) : R := rsum n (fun j => d j * coin M (U + j) a).

Lemma made_ext : forall U f g, (forall a, g a = f a) -> made U f -> made U g.
Proof. intros U f g E [c H]. exists c. intros a. rewrite E. apply H. Qed.
Lemma made_mono : forall U U' f, (U <= U')%nat -> made U f -> made U' f.
Proof.
  intros U U' f H [c E]. exists (fun j => if (j <? U)%nat then c j else 0). intros a. rewrite E. replace U' with (U + (U' - U))%nat by lia.
  rewrite rsum_split, (rsum_0 (U' - U)), Rplus_0_r.
  - apply rsum_ext. intros i Hi. rewrite (proj2 (Nat.ltb_lt i U)) by exact Hi. reflexivity.
  - intros i _. rewrite (proj2 (Nat.ltb_ge (U + i) U)) by lia. ring.
Qed.
Lemma made_drawn : forall U n d, made (U + n) (drawn U n d).
Proof.
  intros U n d. exists (fun j => if (j <? U)%nat then 0 else d (j - U)%nat). intros a. rewrite rsum_split, (rsum_0 U), Rplus_0_l.
  - apply rsum_ext. intros i Hi. rewrite (proj2 (Nat.ltb_ge (U + i) U)) by lia. replace (U + i - U)%nat with i by lia. reflexivity.
  - intros i Hi. rewrite (proj2 (Nat.ltb_lt i U)) by exact Hi. ring.
Qed.
Lemma made_zero : forall U, made U (fun _ => 0).
Proof. intros U. exists (fun _ => 0). intros a. rewrite rsum_0; [reflexivity|]. intros. ring. Qed.
Lemma made_plus : forall U f g, made U f -> made U g -> made U (fun a => f a + g a).
Proof. intros U f g [c E] [d G]. exists (fun j => c j + d j). intros a. rewrite E, G, <- rsum_plus. apply rsum_ext. intros. ring. Qed.
Lemma made_scal : forall U k f, made U f -> made U (fun a => k * f a).
Proof. intros U k f [c E]. exists (fun j => k * c j). intros a. rewrite E, <- rsum_scal_l. apply rsum_ext. intros. ring. Qed.
Lemma made_over : forall U l (f : outcome -> name -> R), (forall x, made U (fun a => f a x)) -> made U (fun a => over l (f a)).
Proof. intros U l f H. induction l as [|x t IH]; [apply made_zero|]. apply (made_plus U (fun a => f a x) (fun a => over t (f a)) (H x) IH). Qed.
Lemma made_rsum : forall U n (f : outcome -> nat -> R), (forall i, made U (fun a => f a i)) -> made U (fun a => rsum n (f a)).
Proof. intros U n f H. induction n as [|n IH]; [apply made_zero|]. apply (made_plus U (fun a => rsum n (f a)) (fun a => f a n) IH (H n)). Qed.

Lemma mean_sum : forall n (f : outcome -> nat -> R), mean (coins M) (fun a => rsum n (f a)) = rsum n (fun i => mean (coins M) (fun a => f a i)).
Proof.
  intros n f. induction n as [|n IH]; [apply mean_zero|]. cbn [rsum]. rewrite (mean_plus (coins M) (fun a => rsum n (f a)) (fun a => f a n)), IH. reflexivity.
Qed.
Lemma made_mean : forall U f, made U f -> mean (coins M) f = 0.
Proof.
  intros U f [c E]. rewrite (mean_ext _ _ _ E), mean_sum. apply rsum_0. intros i _. rewrite (mean_scal _ (c i) (coin M i)), coin_mean. ring.
Qed.
Lemma drawn_mean : forall U n d, mean (coins M) (drawn U n d) = 0.
Proof. intros. apply (made_mean _ _ (made_drawn U n d)). Qed.
Lemma made_spread : forall U n f d, (U + n <= M)%nat -> made U f -> spread (coins M) f (drawn U n d) = 0.
Proof.
  intros U n f d H [c E]. rewrite (spread_ext _ _ _ _ (drawn U n d) E (fun a => eq_refl)).
  rewrite spread_rsum_l. apply rsum_0. intros i Hi. unfold drawn. rewrite spread_rsum_r. apply rsum_0. intros j Hj.
  rewrite (spread_scal_l _ (c i) (coin M i)), (spread_scal_r _ (d j) _ (coin M (U + j))), coin_spread by lia.
  rewrite (proj2 (Nat.eqb_neq i (U + j))) by lia. ring.
Qed.
Lemma drawn_spread : forall U n c d, (U + n <= M)%nat -> spread (coins M) (drawn U n c) (drawn U n d) = rsum n (fun k => c k * d k).
Proof.
  intros U n c d H. unfold drawn. rewrite spread_rsum_l. apply rsum_ext. intros i Hi. rewrite spread_rsum_r.
  rewrite (rsum_single n i); [|exact Hi|].
  - rewrite (spread_scal_l _ (c i) (coin M (U + i))), (spread_scal_r _ (d i) _ (coin M (U + i))), coin_spread, Nat.eqb_refl by lia. ring.
  - intros j Hj NE. rewrite (spread_scal_l _ (c i) (coin M (U + i))), (spread_scal_r _ (d j) _ (coin M (U + j))), coin_spread by lia.
    rewrite (proj2 (Nat.eqb_neq (U + i) (U + j))) by lia. ring.
Qed.

(** *** One step *)
Definition carried (U : nat) (err : errors outcome) : Prop := forall x, made U (fun a => err a x).

Lemma position_lt : forall x l i, position x l = Some i -> (i < length l)%nat.
Proof.
  intros x l. induction l as [|y t IH]; intros i H; [discriminate|]. cbn in *. destruct (name_dec x y); [injection H as <-; lia|].
  destruct (position x t); [|discriminate]. injection H as <-. specialize (IH _ eq_refl). lia.
Qed.
Lemma position_inj : forall x y l i, position x l = Some i -> position y l = Some i -> x = y.
Proof.
  intros x y l. induction l as [|u t IH]; intros i H H'; [discriminate|]. cbn in *.
  destruct (name_dec x u), (name_dec y u); try congruence; destruct (position x t) as [a|] eqn:E, (position y t) as [a'|] eqn:E'; try congruence.
  injection H as <-. injection H' as ->. apply (IH a); reflexivity.
Qed.

Lemma join_exists : forall U names l c err, psd (length l) (ent c) -> (U + length l <= M)%nat -> carried U err ->
  exists err', joined (coins M) names l c err err' /\ carried (U + length l) err'.
Proof.
  intros U names l c err P HU C. destruct (psd_factor _ _ P) as [F E].
  exists (fun a x => match position x l with Some i => drawn U (length l) (F i) a | None => err a x end). split; [split; [|split]|].
  - intros a x Hx. rewrite position_out by exact Hx. reflexivity.
  - intros x y i j Hx Hy. rewrite Hx, Hy. split; [|apply drawn_mean].
    change (spread (coins M) (drawn U (length l) (F i)) (drawn U (length l) (F j)) = ent c i j).
    rewrite drawn_spread by exact HU. symmetry. apply E; eapply position_lt; eassumption.
  - intros x y Hx [Hy Oy]. destruct (position_in x l Hx) as [i Ei]. rewrite Ei, (position_out y l Oy).
    change (spread (coins M) (drawn U (length l) (F i)) (fun a => err a y) = 0). rewrite spread_sym. apply made_spread; [exact HU|apply C].
  - intros x. destruct (position x l) as [i|]; [apply (made_drawn U (length l) (F i))|]. apply (made_mono U); [lia|apply C].
Qed.
Lemma drift_exists : forall U names dt rate err, 0 <= dt -> (forall x, In x names -> 0 <= rate x) -> (U + length names <= M)%nat -> carried U err ->
  exists err', drifted (coins M) names dt rate err err' /\ carried (U + length names) err'.
Proof.
  intros U names dt rate err Hd Hr HU C. set (n := length names).
  set (amp := fun x k => match position x names with Some i => if (k =? i)%nat then sqrt (dt * rate x) else 0 | None => 0 end).
  set (w := fun a x => drawn U n (amp x) a).
  exists (fun a x => pushed dt (fun y => err a y + w a y) x). split.
  - exists w. split; [|split; [|split; [|reflexivity]]].
    + intros x y _ _. apply (made_spread U n _ (amp y)); [exact HU|apply C].
    + intros x _. apply drawn_mean.
    + intros x y Hx Hy. change (spread (coins M) (drawn U n (amp x)) (drawn U n (amp y)) = if name_dec x y then dt * rate x else 0).
      rewrite drawn_spread by exact HU. destruct (position_in x names Hx) as [i Ei], (position_in y names Hy) as [j Ej]. unfold amp. rewrite Ei, Ej.
      destruct (name_dec x y) as [<-|NE].
      * rewrite Ei in Ej. injection Ej as <-. rewrite (rsum_single n i); [|apply (position_lt _ _ _ Ei)|].
        -- rewrite Nat.eqb_refl. apply sqrt_sqrt. apply Rmult_le_pos; [exact Hd|apply Hr; exact Hx].
        -- intros k _ Nk. rewrite (proj2 (Nat.eqb_neq k i)) by exact Nk. ring.
      * apply rsum_0. intros k _. destruct (Nat.eqb_spec k i) as [->|]; [|ring]. destruct (Nat.eqb_spec i j) as [<-|]; [|ring].
        exfalso. apply NE. apply (position_inj x y names i); assumption.
  - assert (T : forall x, made (U + n) (fun a => err a x + w a x)).
    { intros x. apply (made_plus (U + n) (fun a => err a x) (fun a => w a x)); [apply (made_mono U); [lia|apply C]|apply made_drawn]. }
    intros x. destruct x; try apply T. cbn [pushed]. destruct (k <? 3)%nat; [|apply T].
    apply (made_plus _ (fun a => err a (NBody k) + w a (NBody k)) (fun a => dt * (err a (NBody (k + 3)) + w a (NBody (k + 3))))); [apply T|].
    apply (made_scal _ dt (fun a => err a (NBody (k + 3)) + w a (NBody (k + 3)))). apply T.
Qed.
Lemma measure_exists : forall U b m H N err, spd m (ent N) -> (U + m <= M)%nat -> carried U err ->
  exists err', measured (coins M) b m H N err err' /\ carried (U + m) err'.
Proof.
  intros U b m H N err P HU C. destruct (psd_factor _ _ (spd_psd _ _ P)) as [F E].
  set (v := fun a i => drawn U m (F i) a).
  exists (fun a x => err a x - rsum m (fun i => weight b m H N x i * innovation (n_names b) H err v a i)). split.
  - split; [exact P|]. exists v. split; [|intros a x; reflexivity]. split; [|split].
    + intros x i _ Hi. apply (made_spread U m _ (F i)); [exact HU|apply C].
    + intros i _. apply drawn_mean.
    + intros i j Hi Hj. change (spread (coins M) (drawn U m (F i)) (drawn U m (F j)) = ent N i j). rewrite drawn_spread by exact HU. symmetry. apply E; assumption.
  - intros x. assert (C' : carried (U + m) err) by (intros y; apply (made_mono U); [lia|apply C]).
    apply (made_ext _ (fun a => err a x + -1 * rsum m (fun i => weight b m H N x i * innovation (n_names b) H err v a i))); [intros a; ring|].
    apply (made_plus _ (fun a => err a x)); [apply C'|].
    apply (made_scal _ (-1) (fun a => rsum m (fun i => weight b m H N x i * innovation (n_names b) H err v a i))).
    apply (made_rsum _ m (fun a i => weight b m H N x i * innovation (n_names b) H err v a i)). intros i.
    apply (made_scal _ (weight b m H N x i) (fun a => innovation (n_names b) H err v a i)). unfold innovation.
    apply (made_plus _ (fun a => over (n_names b) (fun x => H i x * err a x)) (fun a => v a i)); [|apply made_drawn].
    apply (made_over _ (n_names b) (fun a x => H i x * err a x)). intros y. apply (made_scal _ (H i y) (fun a => err a y)). apply C'.
Qed.
Lemma copy_exists : forall U cam n err, carried U err -> exists err', copied cam n err err' /\ carried U err'.
Proof. intros U cam n err C. exists (fun a x => err a (origin cam n x)). split; [intros a x; reflexivity|]. intros x. apply C. Qed.
Lemma settle_exists : forall U mode w b err, carried U err -> exists err', settled mode w b err err' /\ carried U err'.
Proof.
  intros U mode w b err C. destruct mode; cbn [settled]; try (exists err; split; [reflexivity|exact C]);
    (destruct (snd w); [apply copy_exists; exact C|exists err; split; [reflexivity|exact C]]).
Qed.
End Made.

(** *** Rates stay non-negative *)
Definition ready (b : byname) : Prop :=
  (forall k, (k < 18)%nat -> 0 <= n_body b k) /\ (forall x, In x (n_names b) -> 0 <= n_rate b x) /\
  (forall x, In x (n_names b) -> match x with NBody k => (k < 18)%nat | NClone _ _ _ => True | _ => 0 <= n_stab b x end).

Lemma ready_refresh : forall b, ready b -> ready (nm_refresh b).
Proof.
  intros b (R1 & R2 & R3). split; [exact R1|]. split; [|exact R3]. intros x Hx. cbn in *. specialize (R3 x Hx).
  destruct x; cbn [n_own]; try assumption; [apply R1; exact R3|lra].
Qed.
Lemma ready_same : forall b b', n_body b' = n_body b -> n_names b' = n_names b -> n_rate b' = n_rate b -> n_stab b' = n_stab b -> ready b -> ready b'.
Proof. intros b b' E1 E2 E3 E4 R. unfold ready. rewrite E1, E2, E3, E4. exact R. Qed.
(** After an enrolment the rates are refreshed, so they need not be looked at before. *)
Lemma ready_enrol : forall b l c stab i g c' f p, ready b -> (forall x, In x l -> 0 <= stab x) ->
  (forall x, In x l -> match x with NBody _ | NClone _ _ _ => False | _ => True end) ->
  ready (nm_refresh (with_ids (nm_enrol b l c stab) i g c' f p)).
Proof.
  intros b l c stab i g c' f p (R1 & R2 & R3) P K.
  assert (T : forall x, In x (l ++ n_names b) -> match x with NBody k => (k < 18)%nat | NClone _ _ _ => True | _ =>
    0 <= match position x l with Some _ => stab x | None => n_stab b x end end).
  { intros x Hx. destruct (in_name_dec x l) as [I|O].
    - destruct (position_in x l I) as [j E]. specialize (K x I). destruct x; try destruct K; rewrite E; apply P; exact I.
    - assert (Hb : In x (n_names b)) by (apply in_app_or in Hx; tauto). specialize (R3 x Hb). rewrite position_out by exact O. exact R3. }
  split; [exact R1|]. split; [|exact T]. intros x Hx. cbn in *. specialize (T x Hx). destruct x; cbn [n_own]; try assumption; [apply R1; exact T|lra].
Qed.
Lemma ready_drop : forall b cam d, ready b -> ready (nm_drop b cam d).
Proof.
  intros b cam d (R1 & R2 & R3). split; [exact R1|]. split; intros x Hx; cbn in Hx; apply filter_In in Hx; [apply R2; apply Hx|apply R3; apply Hx].
Qed.
Lemma ready_clone : forall b cam, ready b -> ready (nm_refresh (nm_clone b cam)).
Proof.
  intros b cam (R1 & R2 & R3).
  assert (T : forall x, In x (n_names (nm_clone b cam)) -> match x with NBody k => (k < 18)%nat | NClone _ _ _ => True | _ => 0 <= n_stab b x end).
  { intros x Hx. cbn [n_names nm_clone nm_windows] in Hx. apply in_app_or in Hx. destruct Hx as [Hx|Hx]; [|apply R3; exact Hx].
    unfold ncopies in Hx. apply in_map_iff in Hx. destruct Hx as [k [<- _]]. exact I. }
  split; [exact R1|]. split; [|exact T]. intros x Hx. specialize (T x Hx). cbn. destruct x; cbn [n_own]; try assumption; [apply R1; exact T|lra].
Qed.
Lemma ready_settle : forall mode w b, ready b -> ready (nm_settle mode w b).
Proof.
  intros mode w b R. destruct mode; cbn [nm_settle]; try exact R; cbv zeta;
  (destruct (0 <? fst w)%nat; destruct (snd w); repeat first [apply ready_clone|apply ready_refresh|apply ready_drop|exact R]).
Qed.
Lemma ready_predict : forall b t, ready b -> ready (nm_predict b t).
Proof.
  intros b t R. unfold nm_predict. destruct (Rltb t (n_time b)); [exact R|]. destruct (n_gravity b); apply (ready_same b); try reflexivity; exact R.
Qed.

Definition possible (mode : AugType) (w : nat * bool) (b : byname) (c : call) (n : nat) : Prop :=
  forall M U err, (U + n <= M)%nat -> carried M U err -> exists err', moved (coins M) mode w b c err err' /\ carried M (U + n) err'.
Lemma idle : forall M U (err : errors outcome) (P : errors outcome -> Prop), carried M U err -> P err -> exists err', P err' /\ carried M (U + 0) err'.
Proof. intros M U err P C H. exists err. split; [exact H|]. rewrite Nat.add_0_r. exact C. Qed.

Lemma step_exists : forall mode w b c, ready b -> decent c -> ready (nm_step mode w b c) /\ exists n, possible mode w b c n.
Proof.
  intros mode w b c R D.
  assert (KI : forall (f : nat -> name) n x, In x (ncopies n f) -> (forall k, match f k with NBody _ | NClone _ _ _ => False | _ => True end) -> match x with NBody _ | NClone _ _ _ => False | _ => True end).
  { intros f n x Hx Hf. unfold ncopies in Hx. apply in_map_iff in Hx. destruct Hx as [k [<- _]]. apply Hf. }
  destruct c as [o|H jac res noise]; cbn [nm_step decent] in *.
  2:{ split; [apply (ready_same b); try reflexivity; exact R|]. exists (nr jac). intros M U err HU C. apply measure_exists; assumption. }
  destruct o; cbn [decent] in *;
    try (split; [first [exact R|apply (ready_same b); try reflexivity; exact R]|]; exists 0%nat; intros M U err HU C; apply (idle M U err); [exact C|reflexivity]).
  - destruct D as [P S]. split.
    + unfold nm_imu. destruct (known id (n_imus b)); [exact R|]. apply ready_enrol; [exact R|exact S|]. intros x Hx. unfold imu_names in Hx. apply in_app_or in Hx.
      destruct Hx as [Hx|Hx]; [destruct (i_ext st)|destruct (i_int st)]; first [destruct Hx; fail|eapply KI; [exact Hx|intros; exact I]].
    + unfold possible. cbn [moved]. destruct (known id (n_imus b)); [exists 0%nat; intros M U err HU C; apply (idle M U err); [exact C|reflexivity]|].
      exists (length (imu_names id st)). intros M U err HU C. apply join_exists; assumption.
  - destruct D as [P S]. split.
    + unfold nm_gps. destruct (known id (n_gpss b)); [exact R|]. apply ready_enrol; [exact R|exact S|]. intros x Hx. unfold gps_names in Hx.
      destruct (g_ext st); first [destruct Hx; fail|eapply KI; [exact Hx|intros; exact I]].
    + unfold possible. cbn [moved]. destruct (known id (n_gpss b)); [exists 0%nat; intros M U err HU C; apply (idle M U err); [exact C|reflexivity]|].
      exists (length (gps_names id st)). intros M U err HU C. apply join_exists; assumption.
  - destruct D as [P S]. split.
    + unfold nm_cam. destruct (known id (n_cams b)); [exact R|]. apply ready_enrol; [exact R|exact S|]. intros x Hx. unfold cam_names in Hx.
      destruct (c_ext st); first [destruct Hx; fail|eapply KI; [exact Hx|intros; exact I]].
    + unfold possible. cbn [moved]. destruct (known id (n_cams b)); [exists 0%nat; intros M U err HU C; apply (idle M U err); [exact C|reflexivity]|].
      exists (length (cam_names id st)). intros M U err HU C. apply join_exists; assumption.
  - destruct D as [P S]. split.
    + unfold nm_fid. destruct (known (f_id st) (n_fids b)); [exact R|]. apply ready_enrol; [exact R|exact S|]. intros x Hx. unfold fid_names in Hx.
      destruct (f_ext st); first [destruct Hx; fail|eapply KI; [exact Hx|intros; exact I]].
    + unfold possible. cbn [moved]. destruct (known (f_id st) (n_fids b)); [exists 0%nat; intros M U err HU C; apply (idle M U err); [exact C|reflexivity]|].
      exists (length (fid_names (f_id st) st)). intros M U err HU C. apply join_exists; assumption.
  - split; [destruct (Rltb t (n_time b)); [exact R|]; apply ready_settle, ready_predict, R|].
    unfold possible. cbn [moved]. destruct (Rltb t (n_time b)) eqn:E; [exists 0%nat; intros M U err HU C; apply (idle M U err); [exact C|reflexivity]|].
    apply Rltb_false in E. destruct (n_gravity b).
    + exists (length (n_names b)). intros M U err HU C.
      destruct (drift_exists M U (n_names b) (t - n_time b) (n_rate b) err) as [e1 [D1 C1]]; [lra|apply R|exact HU|exact C|].
      destruct (settle_exists M _ mode w b e1 C1) as [e2 [D2 C2]]. exists e2. split; [exists e1; split; assumption|exact C2].
    + exists 0%nat. intros M U err HU C. destruct (settle_exists M _ mode w b err C) as [e2 [D2 C2]]. exists e2.
      split; [exists err; split; [reflexivity|exact D2]|]. rewrite Nat.add_0_r. exact C2.
  - split.
    + unfold nm_frame. destruct (match mode with AAll => true | APrimary => (cam =? n_primary b)%nat | _ => false end); [|exact R]. cbv zeta.
      apply ready_clone. destruct (n_max b <=? n_next b cam - n_first b cam)%nat; [apply ready_drop|]; exact R.
    + exists 0%nat. unfold possible. cbn [moved]. intros M U err HU C. rewrite Nat.add_0_r.
      destruct (match mode with AAll => true | APrimary => (cam =? n_primary b)%nat | _ => false end); [apply copy_exists; exact C|].
      exists err. split; [reflexivity|exact C].
  - split; [apply ready_settle; exact R|]. exists 0%nat. intros M U err HU C. rewrite Nat.add_0_r. apply settle_exists. exact C.
  - split; [apply ready_refresh; exact R|]. exists 0%nat. intros M U err HU C. apply (idle M U err); [exact C|reflexivity].
  - split; [destruct R as (R1 & R2 & R3); split; [exact D|split; assumption]|]. exists 0%nat. intros M U err HU C. apply (idle M U err); [exact C|reflexivity].
  - split; [destruct (n_started b); [exact R|apply (ready_same b); try reflexivity; exact R]|]. exists 0%nat. intros M U err HU C. apply (idle M U err); [exact C|reflexivity].
Qed.

Lemma lives_exists : forall mode l b, ready b -> (forall c w, In (c, w) l -> decent c) ->
  exists n, forall M U err, (U + n <= M)%nat -> carried M U err -> exists err', lives (coins M) mode b err l err' /\ carried M (U + n) err'.
Proof.
  intros mode l. induction l as [|[c w] t IH]; intros b R D.
  - exists 0%nat. intros M U err _ C. exists err. split; [constructor|]. rewrite Nat.add_0_r. exact C.
  - destruct (step_exists mode w b c R (D c w (or_introl eq_refl))) as [R' [n P]].
    destruct (IH _ R' (fun c' w' I => D c' w' (or_intror I))) as [n' P'].
    exists (n + n')%nat. intros M U err HU C. destruct (P M U err) as [e1 [S1 C1]]; [lia|exact C|].
    destruct (P' M (U + n)%nat e1) as [e2 [L2 C2]]; [lia|exact C1|]. exists e2. split; [econstructor; eassumption|]. rewrite Nat.add_assoc. exact C2.
Qed.
(** With room for one more noise of any covariance. *)
Lemma errors_exist : forall mode q l m (N0 : fmat), (forall k, (k < 18)%nat -> 0 <= ent q k 0) -> (forall c w, In (c, w) l -> decent c) -> psd m N0 ->
  exists (L : law outcome) err err' v, chances L /\ initial L err /\ lives L mode (nm_init q) err l err' /\
    noise_of L (n_names (nm_run mode (nm_init q) l)) m N0 err' v.
Proof.
  intros mode q l m N0 Q D PN.
  assert (R : ready (nm_init q)).
  { split; [exact Q|]. split; [intros x _; cbn; lra|]. intros x Hx. cbn [n_names nm_init] in Hx. unfold ncopies in Hx. apply in_map_iff in Hx.
    destruct Hx as [k [<- Hk]]. apply in_seq in Hk. lia. }
  destruct (lives_exists mode l (nm_init q) R D) as [n P]. set (M := (18 + n + m)%nat).
  set (err0 := fun a x => match x with NBody k => if (k <? 18)%nat then 1 / 10 * coin M k a else 0 | _ => 0 end).
  destruct (P M 18%nat err0) as [err' [H C]]; [unfold M; lia| |].
  - intros x. destruct x; try apply made_zero. cbn [err0]. destruct (Nat.ltb_spec k 18) as [Hk|]; [|apply made_zero].
    apply (made_scal M 18 (1 / 10) (coin M k)). exists (fun j => if (j =? k)%nat then 1 else 0). intros a.
    rewrite (rsum_single 18 k); [|exact Hk|]; [rewrite Nat.eqb_refl; ring|]. intros j Hj Nj. rewrite (proj2 (Nat.eqb_neq j k)) by exact Nj. ring.
  - destruct (psd_factor _ _ PN) as [F E]. exists (coins M), err0, err', (fun a i => drawn M (18 + n) m (F i) a).
    split; [apply coins_chances; unfold M; lia|]. split; [|split; [exact H|]].
    + intros j k Hj Hk. cbn [err0]. rewrite !(proj2 (Nat.ltb_lt _ 18)) by assumption.
      rewrite (mean_scal _ (1 / 10) (coin M j)), coin_mean. split; [ring|].
      rewrite (spread_scal_l _ (1 / 10) (coin M j)), (spread_scal_r _ (1 / 10) _ (coin M k)), coin_spread by (unfold M; lia).
      destruct (j =? k)%nat; field.
    + split; [|split].
      * intros x i _ Hi. apply (made_spread M (18 + n) m _ (F i)); [unfold M; lia|apply C].
      * intros i _. apply drawn_mean.
      * intros i j Hi Hj. change (spread (coins M) (drawn M (18 + n) m (F i)) (drawn M (18 + n) m (F j)) = N0 i j).
        rewrite drawn_spread by (unfold M; lia). symmetry. apply E; assumption.
Qed.
