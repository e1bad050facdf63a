(** The tracker on camera images over a history of frames. *)
From Coq Require Import Reals List Arith ZArith Bool Lia Lra Sorted Permutation.
From Verif Require Import Base.Res Base.RDec Base.Geom Base.AMap Model.Types Model.Ekf Model.MsckfUpdater Model.Trackers
  Spec.Sub Spec.Matches Spec.Tracks Proofs.Matches Proofs.Tracks Proofs.SimTracks.
Import ListNotations.
Open Scope nat_scope.

Definition pos2 (p : KeyPoint) : R * R := (kp_x p, kp_y p).

(** *** Assigning feature numbers to matches *)
Inductive matched (prev curr : list KeyPoint) (pf : nat) (pt : R) (frame : nat) (now : R) :
  nat -> list DMatch -> list FeaturePoint -> list (nat * Z) -> nat -> Prop :=
| md_nil : forall n, matched prev curr pf pt frame now n [] [] [] n
| md_new : forall n m p c ms P asg n', nth_error prev (dm_query m) = Some p -> nth_error curr (dm_train m) = Some c ->
    kp_class p = (-1)%Z -> matched prev curr pf pt frame now (S n) ms P asg n' ->
    matched prev curr pf pt frame now n (m :: ms)
      (mkFP pf pt (set_class p (Z.of_nat n)) :: mkFP frame now (set_class c (Z.of_nat n)) :: P)
      ((dm_train m, Z.of_nat n) :: asg) n'
| md_old : forall n m p c ms P asg n', nth_error prev (dm_query m) = Some p -> nth_error curr (dm_train m) = Some c ->
    (0 <= kp_class p)%Z -> matched prev curr pf pt frame now n ms P asg n' ->
    matched prev curr pf pt frame now n (m :: ms) (mkFP frame now (set_class c (kp_class p)) :: P)
      ((dm_train m, kp_class p) :: asg) n'.

Lemma vset_nth : forall A (l : list A) i a j, i < length l ->
  nth_error (vset l i a) j = if Nat.eqb j i then Some a else nth_error l j.
Proof.
  induction l as [|b l IH]; simpl; intros i a j H; [lia|]. destruct i as [|i]; destruct j as [|j]; simpl; auto.
  rewrite IH by lia. reflexivity.
Qed.
Lemma vset_length : forall A (l : list A) i a, length (vset l i a) = length l.
Proof. induction l as [|b l IH]; simpl; intros i a; [reflexivity|]. destruct i; simpl; auto. Qed.
Lemma nth_lt : forall A (l : list A) i x, nth_error l i = Some x -> i < length l.
Proof. intros. apply nth_error_Some. congruence. Qed.

Definition classed (l : list KeyPoint) : Prop := Forall (fun p => kp_class p = (-1)%Z \/ (0 <= kp_class p)%Z) l.

Lemma track_matches_spec : forall t frame now prev0 curr0 ms n prev curr fm,
  classed prev0 -> wfm fm -> length prev = length prev0 -> length curr = length curr0 ->
  NoDup (map dm_query ms) -> NoDup (map dm_train ms) ->
  Forall (fun m => dm_query m < length prev0 /\ dm_train m < length curr0) ms ->
  (forall m, In m ms -> nth_error prev (dm_query m) = nth_error prev0 (dm_query m)) ->
  (forall m, In m ms -> nth_error curr (dm_train m) = nth_error curr0 (dm_train m)) ->
  exists P asg n' prev' curr' fm',
    track_matches t frame now ms (n, prev, curr, fm) = OK (n', prev', curr', fm') /\
    matched prev0 curr0 (it_prev_frame t) (it_prev_time t) frame now n ms P asg n' /\
    push_points fm P = OK fm' /\ length curr' = length curr0 /\
    (forall j id, In (j, id) asg -> exists c, nth_error curr0 j = Some c /\ nth_error curr' j = Some (set_class c id)) /\
    (forall j, ~ In j (map dm_train ms) -> nth_error curr' j = nth_error curr j).
Proof.
  intros t frame now prev0 curr0. induction ms as [|m ms IH]; intros n prev curr fm C W Lp Lc Nq Nt F Ap Ac.
  - exists [], [], n, prev, curr, fm. simpl. repeat split; auto; try constructor. intros j id [].
  - inversion F as [|? ? [Fq Ft] F']; subst. inversion Nq as [|? ? Nq1 Nq2]; subst. inversion Nt as [|? ? Nt1 Nt2]; subst.
    destruct (nth_error prev0 (dm_query m)) as [p|] eqn:Ep; [|apply nth_error_None in Ep; lia].
    destruct (nth_error curr0 (dm_train m)) as [c|] eqn:Ec; [|apply nth_error_None in Ec; lia].
    pose proof (Ap m (or_introl eq_refl)) as Ap0. pose proof (Ac m (or_introl eq_refl)) as Ac0.
    rewrite Ep in Ap0. rewrite Ec in Ac0.
    assert (Cp : kp_class p = (-1)%Z \/ (0 <= kp_class p)%Z).
    { unfold classed in C. rewrite Forall_forall in C. apply C. eapply nth_error_In; eauto. }
    assert (Other : forall m', In m' ms -> dm_query m' <> dm_query m /\ dm_train m' <> dm_train m).
    { intros m' Hm. split; intro E; [apply Nq1|apply Nt1]; rewrite <- E; now apply in_map. }
    cbn [track_matches]. unfold track_match at 1. unfold vnth. rewrite Ap0. cbn [bind].
    destruct (Z.eqb (kp_class p) (-1)) eqn:E1.
    + apply Z.eqb_eq in E1. cbn [kp_class set_class bind].
      destruct (push_point_spec fm (mkFP (it_prev_frame t) (it_prev_time t) (set_class p (Z.of_nat n))) W) as [fm1 [P1 [W1 _]]]; [simpl; lia|].
      destruct (push_point_spec fm1 (mkFP frame now (set_class c (Z.of_nat n))) W1) as [fm2 [P2 [W2 _]]]; [simpl; lia|].
      destruct (IH (S n) (vset prev (dm_query m) (set_class p (Z.of_nat n))) (vset curr (dm_train m) (set_class c (Z.of_nat n))) fm2)
        as [P [asg [n' [prev' [curr' [fm' [R1 [R2 [R3 [R4 [R5 R6]]]]]]]]]]]; auto.
      { now rewrite vset_length. } { now rewrite vset_length. }
      { intros m' Hm. rewrite vset_nth by lia. destruct (Other m' Hm) as [O1 _]. apply Nat.eqb_neq in O1. rewrite O1. apply Ap. now right. }
      { intros m' Hm. rewrite vset_nth by lia. destruct (Other m' Hm) as [_ O1]. apply Nat.eqb_neq in O1. rewrite O1. apply Ac. now right. }
      eexists. eexists. exists n', prev', curr', fm'.
      unfold set_class in *. cbn [kp_class kp_x kp_y bind] in *.
      rewrite P1. cbn [bind]. rewrite Ac0. cbn [bind kp_class]. rewrite P2. cbn [bind].
      split; [exact R1|]. split; [eapply (md_new _ _ _ _ _ _ n m p c); eauto|].
      split; [cbn [push_points]; unfold set_class; rewrite P1; cbn [bind]; rewrite P2; cbn [bind]; exact R3|]. split; [auto|]. split.
      * intros j id [Hj|Hj]; [|now apply R5]. injection Hj as <- <-. exists c. split; auto.
        rewrite R6 by auto. rewrite vset_nth by lia. now rewrite Nat.eqb_refl.
      * intros j Hj. simpl in Hj. rewrite R6 by tauto. rewrite vset_nth by lia.
        assert (E : Nat.eqb j (dm_train m) = false) by (apply Nat.eqb_neq; intro; subst; tauto). now rewrite E.
    + apply Z.eqb_neq in E1. destruct Cp as [Cp|Cp]; [contradiction|]. cbn [bind].
      destruct (push_point_spec fm (mkFP frame now (set_class c (kp_class p))) W) as [fm2 [P2 [W2 _]]]; [simpl; lia|].
      destruct (IH n prev (vset curr (dm_train m) (set_class c (kp_class p))) fm2)
        as [P [asg [n' [prev' [curr' [fm' [R1 [R2 [R3 [R4 [R5 R6]]]]]]]]]]]; auto.
      { now rewrite vset_length. }
      { intros m' Hm. apply Ap. now right. }
      { intros m' Hm. rewrite vset_nth by lia. destruct (Other m' Hm) as [_ O1]. apply Nat.eqb_neq in O1. rewrite O1. apply Ac. now right. }
      eexists. eexists. exists n', prev', curr', fm'. rewrite Ac0. cbn [bind]. rewrite P2. cbn [bind].
      split; [exact R1|]. split; [eapply md_old; eauto|].
      split; [cbn [push_points]; rewrite P2; cbn [bind]; exact R3|]. split; [auto|]. split.
      * intros j id [Hj|Hj]; [|now apply R5]. injection Hj as <- <-. exists c. split; auto.
        rewrite R6 by auto. rewrite vset_nth by lia. now rewrite Nat.eqb_refl.
      * intros j Hj. simpl in Hj. rewrite R6 by tauto. rewrite vset_nth by lia.
        assert (E : Nat.eqb j (dm_train m) = false) by (apply Nat.eqb_neq; intro; subst; tauto). now rewrite E.
Qed.

Section Matched.
Variables (prev curr : list KeyPoint) (pf : nat) (pt : R) (frame : nat) (now : R) (n0 : nat).
Hypothesis Hpf : pf <> frame.
Hypothesis Pprev : NoDup (map pos2 prev).
Hypothesis Pcurr : NoDup (map pos2 curr).
Hypothesis Cprev : Forall (fun p => kp_class p = (-1)%Z \/ (0 <= kp_class p < Z.of_nat n0)%Z) prev.
Hypothesis Dprev : forall i j p q, nth_error prev i = Some p -> nth_error prev j = Some q ->
  kp_class p = kp_class q -> kp_class p <> (-1)%Z -> i = j.
Let M := matched prev curr pf pt frame now.

Lemma matched_mono : forall n ms P asg n', M n ms P asg n' -> n <= n' /\ map fst asg = map dm_train ms.
Proof.
  unfold M. induction 1 as [n|n m p c ms P asg n' Hp Hc Hcl _ [IH1 IH2]|n m p c ms P asg n' Hp Hc Hcl _ [IH1 IH2]];
    simpl; (split; [lia|]); auto; f_equal; auto.
Qed.

(** Where a pushed point comes from *)
Lemma matched_in : forall n ms P asg n', M n ms P asg n' -> forall x, In x P ->
  (exists i p, In i (map dm_query ms) /\ nth_error prev i = Some p /\ kp_class p = (-1)%Z /\ fp_frame x = pf /\
     pos2 (fp_kp x) = pos2 p /\ (Z.of_nat n <= kp_class (fp_kp x) < Z.of_nat n')%Z) \/
  (exists j c, In (j, kp_class (fp_kp x)) asg /\ nth_error curr j = Some c /\ fp_frame x = frame /\ pos2 (fp_kp x) = pos2 c).
Proof.
  unfold M. induction 1 as [n|n m p c ms P asg n' Hp Hc Hcl H IH|n m p c ms P asg n' Hp Hc Hcl H IH]; intros x Hx; [contradiction| |].
  - pose proof (matched_mono _ _ _ _ _ H) as [Hm _]. destruct Hx as [<-|[<-|Hx]].
    + left. exists (dm_query m), p. simpl. repeat split; auto; lia.
    + right. exists (dm_train m), c. simpl. repeat split; auto.
    + destruct (IH x Hx) as [[i [q [A1 [A2 [A3 [A4 [A5 A6]]]]]]]|[j [q [A1 [A2 [A3 A4]]]]]].
      * left. exists i, q. simpl. repeat split; auto; lia.
      * right. exists j, q. simpl. repeat split; auto.
  - destruct Hx as [<-|Hx].
    + right. exists (dm_train m), c. simpl. repeat split; auto.
    + destruct (IH x Hx) as [[i [q [A1 [A2 [A3 [A4 [A5 A6]]]]]]]|[j [q [A1 [A2 [A3 A4]]]]]].
      * left. exists i, q. simpl. repeat split; auto; apply A6.
      * right. exists j, q. simpl. repeat split; auto.
Qed.

Lemma matched_ids : forall n ms P asg n', M n ms P asg n' -> forall j id, In (j, id) asg ->
  (Z.of_nat n <= id < Z.of_nat n')%Z \/
  (exists i p, In i (map dm_query ms) /\ nth_error prev i = Some p /\ kp_class p = id /\ (0 <= id)%Z).
Proof.
  unfold M. induction 1 as [n|n m p c ms P asg n' Hp Hc Hcl H IH|n m p c ms P asg n' Hp Hc Hcl H IH]; intros j id Hi; [contradiction| |].
  - pose proof (matched_mono _ _ _ _ _ H) as [Hm _]. destruct Hi as [Hi|Hi]; [injection Hi as <- <-; left; lia|].
    destruct (IH j id Hi) as [A|[i [q [A1 A2]]]]; [left; lia|]. right. exists i, q. simpl. auto.
  - destruct Hi as [Hi|Hi]; [injection Hi as <- <-; right; exists (dm_query m), p; simpl; auto|].
    destruct (IH j id Hi) as [A|[i [q [A1 A2]]]]; [left; lia|]. right. exists i, q. simpl. auto.
Qed.

Lemma old_below : forall i p, nth_error prev i = Some p -> (0 <= kp_class p)%Z -> (kp_class p < Z.of_nat n0)%Z.
Proof.
  intros i p H H0. rewrite Forall_forall in Cprev. destruct (Cprev p (nth_error_In _ _ H)); lia.
Qed.

Lemma matched_ids_nodup : forall n ms P asg n', n0 <= n -> M n ms P asg n' -> NoDup (map dm_query ms) ->
  NoDup (map snd asg).
Proof.
  intros n ms P asg n' Hn H. revert Hn. unfold M in H.
  induction H as [n|n m p c ms P asg n' Hp Hc Hcl H IH|n m p c ms P asg n' Hp Hc Hcl H IH]; intros Hn Nq; simpl; [constructor| |];
    inversion Nq as [|? ? Nq1 Nq2]; subst; (constructor; [|apply IH; auto; lia]); intro Hi;
    apply in_map_iff in Hi; destruct Hi as [[j id] [E Hi]]; simpl in E; subst;
    (destruct (matched_ids _ _ _ _ _ H _ _ Hi) as [A|[i [q [A1 [A2 [A3 A4]]]]]]).
  - lia.
  - pose proof (old_below i q A2) as B. rewrite A3 in B. lia.
  - pose proof (old_below _ p Hp Hcl). lia.
  - assert (dm_query m = i) by (eapply Dprev; eauto; lia). subst. contradiction.
Qed.

Lemma matched_class : forall n ms P asg n', n0 <= n -> M n ms P asg n' -> NoDup (map dm_query ms) -> forall k,
  filter (class_is k) P = [] \/
  (exists x, filter (class_is k) P = [x] /\ fp_frame x = frame /\
     exists i p, nth_error prev i = Some p /\ kp_class p = Z.of_nat k) \/
  (exists x y, filter (class_is k) P = [x; y] /\ fp_frame x = pf /\ fp_frame y = frame /\ n <= k < n').
Proof.
  intros n ms P asg n' Hn H. revert Hn. unfold M in H.
  induction H as [n|n m p c ms P asg n' Hp Hc Hcl H IH|n m p c ms P asg n' Hp Hc Hcl H IH]; intros Hn Nq k; simpl; [auto| |];
    inversion Nq as [|? ? Nq1 Nq2]; subst.
  - pose proof (matched_mono _ _ _ _ _ H) as [Hm _].
    assert (Rest : k = n -> filter (class_is k) P = []).
    { intros ->. destruct (filter (class_is n) P) as [|x l] eqn:E; [reflexivity|exfalso].
      assert (Hx : In x (filter (class_is n) P)) by (rewrite E; now left). apply filter_In in Hx. destruct Hx as [Hx Cx].
      apply class_is_spec in Cx. destruct (matched_in _ _ _ _ _ H x Hx) as [[i [q [_ [_ [_ [_ [_ A]]]]]]]|[j [q [A [_ _]]]]]; [lia|].
      destruct (matched_ids _ _ _ _ _ H _ _ A) as [B|[i [r [B1 [B2 [B3 B4]]]]]]; [lia|].
      pose proof (old_below i r B2). rewrite B3 in H0. lia. }
    assert (E1 : class_is k (mkFP pf pt (set_class p (Z.of_nat n))) = Z.eqb (Z.of_nat n) (Z.of_nat k)) by reflexivity.
    assert (E2 : class_is k (mkFP frame now (set_class c (Z.of_nat n))) = Z.eqb (Z.of_nat n) (Z.of_nat k)) by reflexivity.
    rewrite E1, E2. destruct (Z.eqb (Z.of_nat n) (Z.of_nat k)) eqn:E.
    + apply Z.eqb_eq in E. assert (k = n) by lia. subst. rewrite Rest by auto.
      right. right. eexists. eexists. split; [reflexivity|]. simpl. repeat split; auto; lia.
    + destruct (IH (le_S _ _ Hn) Nq2 k) as [A|[A|[x [y [A1 [A2 [A3 A4]]]]]]]; auto.
      right. right. exists x, y. repeat split; auto; lia.
  - assert (E0 : class_is k (mkFP frame now (set_class c (kp_class p))) = Z.eqb (kp_class p) (Z.of_nat k)) by reflexivity.
    rewrite ?E0. destruct (Z.eqb (kp_class p) (Z.of_nat k)) eqn:E; [|now apply IH].
    apply Z.eqb_eq in E. right. left.
    assert (Rest : filter (class_is k) P = []).
    { destruct (filter (class_is k) P) as [|x l] eqn:Ef; [reflexivity|exfalso].
      assert (Hx : In x (filter (class_is k) P)) by (rewrite Ef; now left). apply filter_In in Hx. destruct Hx as [Hx Cx].
      apply class_is_spec in Cx. pose proof (old_below _ p Hp Hcl).
      destruct (matched_in _ _ _ _ _ H x Hx) as [[i [q [_ [_ [_ [_ [_ A]]]]]]]|[j [q [A [_ _]]]]]; [lia|].
      destruct (matched_ids _ _ _ _ _ H _ _ A) as [B|[i [r [B1 [B2 [B3 B4]]]]]]; [lia|].
      assert (dm_query m = i) by (eapply Dprev; eauto; lia). subst. contradiction. }
    rewrite Rest. eexists. split; [reflexivity|]. split; [reflexivity|]. eauto.
Qed.

Lemma matched_labels : forall n ms P asg n', n0 <= n -> M n ms P asg n' -> NoDup (map dm_query ms) -> NoDup (map label P).
Proof.
  intros n ms P asg n' Hn H Nq. apply nodup_by_class.
  - intros x Hx. exists (Z.to_nat (kp_class (fp_kp x))). apply class_is_spec.
    destruct (matched_in _ _ _ _ _ H x Hx) as [[i [q [_ [_ [_ [_ [_ A]]]]]]]|[j [q [A [_ _]]]]]; [lia|].
    destruct (matched_ids _ _ _ _ _ H _ _ A) as [B|[i [r [B1 [B2 [B3 B4]]]]]]; lia.
  - intros k. destruct (matched_class _ _ _ _ _ Hn H Nq k) as [->|[[x [-> _]]|[x [y [-> [A1 [A2 _]]]]]]]; simpl; repeat constructor; auto.
    intros [E|[]]. unfold label in E. injection E as E _. congruence.
Qed.

Lemma nodup_nth_eq : forall A B (f : A -> B) l i j a b, NoDup (map f l) -> nth_error l i = Some a -> nth_error l j = Some b ->
  f a = f b -> i = j.
Proof.
  intros A B f l i j a b N Hi Hj E. apply (proj1 (NoDup_nth_error (map f l)) N).
  - rewrite map_length. now apply nth_lt in Hi.
  - rewrite !nth_error_map, Hi, Hj. simpl. congruence.
Qed.

Lemma matched_places : forall n ms P asg n', M n ms P asg n' -> NoDup (map dm_query ms) -> NoDup (map dm_train ms) ->
  NoDup (map place P).
Proof.
  unfold M. induction 1 as [n|n m p c ms P asg n' Hp Hc Hcl H IH|n m p c ms P asg n' Hp Hc Hcl H IH]; intros Nq Nt; simpl; [constructor| |];
    inversion Nq as [|? ? Nq1 Nq2]; subst; inversion Nt as [|? ? Nt1 Nt2]; subst; pose proof (matched_mono _ _ _ _ _ H) as [_ Hf].
  - assert (Q : ~ In (place (mkFP frame now (set_class c (Z.of_nat n)))) (map place P)).
    { intro Hi. apply in_map_iff in Hi. destruct Hi as [x [E Hx]]. unfold place in E. simpl in E. injection E as E1 E2 E3.
      destruct (matched_in _ _ _ _ _ H x Hx) as [[i [q [A1 [A2 [_ [A3 [A4 _]]]]]]]|[j [q [A1 [A2 [A3 A4]]]]]]; [congruence|].
      assert (dm_train m = j) by (apply (nodup_nth_eq _ _ pos2 curr _ _ c q Pcurr Hc A2); rewrite <- A4; unfold pos2; congruence).
      subst. apply Nt1. rewrite <- Hf. apply (in_map fst) in A1. exact A1. }
    constructor; [|constructor; auto]. intros [E|Hi].
    + unfold place in E. simpl in E. injection E as E _. congruence.
    + apply in_map_iff in Hi. destruct Hi as [x [E Hx]]. unfold place in E. simpl in E. injection E as E1 E2 E3.
      destruct (matched_in _ _ _ _ _ H x Hx) as [[i [q [A1 [A2 [_ [A3 [A4 _]]]]]]]|[j [q [A1 [A2 [A3 A4]]]]]]; [|congruence].
      assert (dm_query m = i) by (apply (nodup_nth_eq _ _ pos2 prev _ _ p q Pprev Hp A2); rewrite <- A4; unfold pos2; congruence). subst. contradiction.
  - constructor; auto. intro Hi. apply in_map_iff in Hi. destruct Hi as [x [E Hx]]. unfold place in E. simpl in E. injection E as E1 E2 E3.
    destruct (matched_in _ _ _ _ _ H x Hx) as [[i [q [A1 [A2 [_ [A3 [A4 _]]]]]]]|[j [q [A1 [A2 [A3 A4]]]]]]; [congruence|].
    assert (dm_train m = j) by (apply (nodup_nth_eq _ _ pos2 curr _ _ c q Pcurr Hc A2); rewrite <- A4; unfold pos2; congruence).
    subst. apply Nt1. rewrite <- Hf. apply (in_map fst) in A1. exact A1.
Qed.
End Matched.

Lemma nth_error_ext : forall A (l l' : list A), (forall j, nth_error l j = nth_error l' j) -> l = l'.
Proof.
  induction l as [|a l IH]; intros [|b l'] H; auto; try (specialize (H 0); discriminate).
  pose proof (H 0) as H0. simpl in H0. injection H0 as ->. f_equal. apply IH. intros j. apply (H (S j)).
Qed.

(** *** All points of a map *)
Lemma mset_values : forall m k t, wfm m -> Permutation (concat (map snd (mset k (mget [] k m ++ t) m))) (concat (map snd m) ++ t).
Proof.
  intros m k t [Hs _]. unfold mget. destruct (mfind k m) as [w|] eqn:E.
  - destruct (mset_present _ k (w ++ t) m w E Hs) as [l [r [E1 E2]]]. rewrite E2. rewrite E1.
    rewrite !map_app, !concat_app. simpl. rewrite <- !app_assoc. do 2 apply Permutation_app_head. apply Permutation_app_comm.
  - destruct (mset_fresh _ k t m E) as [l [r [E1 [E2 _]]]]. simpl. rewrite E2. rewrite E1.
    rewrite !map_app, !concat_app. simpl. rewrite <- !app_assoc. apply Permutation_app_head. apply Permutation_app_comm.
Qed.
Lemma push_perm : forall P m m', wfm m -> push_points m P = OK m' -> Permutation (concat (map snd m')) (concat (map snd m) ++ P).
Proof.
  induction P as [|p P IH]; intros m m' W H; simpl in H.
  - injection H as <-. now rewrite app_nil_r.
  - apply bind_OK in H. destruct H as [m1 [H1 H]].
    assert (Hp : (0 <= kp_class (fp_kp p))%Z).
    { unfold push_point in H1. destruct (Z.leb 0 (kp_class (fp_kp p))) eqn:E; [now apply Z.leb_le|discriminate]. }
    destruct (push_point_spec m p W Hp) as [m2 [E2 [W2 _]]]. rewrite H1 in E2. injection E2 as <-.
    eapply perm_trans; [apply IH; eauto|]. unfold push_point in H1. apply Z.leb_le in Hp. rewrite Hp in H1. cbn [guard bind] in H1.
    injection H1 as <-. eapply perm_trans; [apply Permutation_app_tail, mset_values, W|]. rewrite <- app_assoc. reflexivity.
Qed.

(** *** The current points *)
Lemma current_sub : forall im, (forall l, sub (im_described im l) l) ->
  sub (current_points im) (GridFeatures (im_rows im) (im_cols im) (im_detected im)).
Proof. intros im H. apply H. Qed.
Lemma grid_pos : forall r c l, NoDup (map pos2 (GridFeatures r c l)).
Proof.
  intros r c l. pose proof (grid_cells r c l []) as N.
  assert (K : forall l, NoDup (map cell l) -> NoDup (map pos2 l)).
  { clear. induction l as [|p l IH]; simpl; intros H; constructor; inversion H; subst; auto.
    intro Hi. apply H2. apply in_map_iff in Hi. destruct Hi as [q [E Hq]]. apply in_map_iff. exists q. split; auto.
    unfold pos2 in E. injection E as E1 E2. unfold cell. now rewrite E1, E2. }
  apply K. exact N.
Qed.
Lemma current_facts : forall t im, image_ok t im ->
  NoDup (map pos2 (current_points im)) /\ Forall (fun p => kp_class p = (-1)%Z) (current_points im) /\
  (forall p, In p (current_points im) -> In p (im_detected im)).
Proof.
  intros t im [H1 [H2 _]]. pose proof (current_sub im H2) as Sb. split; [|split].
  - eapply sub_nodup; [apply sub_map, Sb|apply grid_pos].
  - eapply sub_forall; [exact Sb|]. eapply sub_forall; [apply grid_subsequence|]. exact H1.
  - intros p Hp. eapply sub_in; [apply grid_subsequence|]. eapply sub_in; eauto.
Qed.

(** *** Invariant *)
Definition from_history (h : list (nat * list KeyPoint)) (p : FeaturePoint) : Prop :=
  exists pts q, In (fp_frame p, pts) h /\ In q pts /\ pos2 (fp_kp p) = pos2 q.

Record image_inv (mn mx : nat) (h : list (nat * list KeyPoint)) (out lost : list (list FeaturePoint)) (n : nat) (t : image_tracker) : Prop := mkII {
  ii_min : it_min t = mn;
  ii_max : it_max t = mx;
  ii_wfm : wfm (it_map t);
  ii_place : NoDup (map place (concat (out ++ lost ++ map snd (it_map t))));
  ii_label : NoDup (map label (concat (out ++ lost ++ map snd (it_map t))));
  ii_tracks : Forall (fun u => one_feature u /\ segment (frames u) (map fst h)) (out ++ lost ++ map snd (it_map t));
  ii_points : Forall (fun p => (kp_class (fp_kp p) < Z.of_nat n)%Z /\ from_history h p) (concat (out ++ lost ++ map snd (it_map t)));
  ii_frames : ascending (map fst h);
  ii_prev : (h = [] /\ it_prev t = []) \/
    (exists h' pts, h = h' ++ [(it_prev_frame t, pts)] /\ map pos2 (it_prev t) = map pos2 pts);
  ii_ppos : NoDup (map pos2 (it_prev t));
  ii_pcls : Forall (fun p => kp_class p = (-1)%Z \/ (0 <= kp_class p < Z.of_nat n)%Z) (it_prev t);
  ii_pdist : forall i j p q, nth_error (it_prev t) i = Some p -> nth_error (it_prev t) j = Some q ->
    kp_class p = kp_class q -> kp_class p <> (-1)%Z -> i = j;
  ii_here : forall p, In p (concat (out ++ lost ++ map snd (it_map t))) -> fp_frame p = it_prev_frame t ->
    exists q, In q (it_prev t) /\ pos2 q = pos2 (fp_kp p) /\ kp_class q = kp_class (fp_kp p);
  ii_last : forall k u q, In (k, u) (it_map t) -> In q (it_prev t) -> kp_class q = Z.of_nat k -> back_frame u = it_prev_frame t;
  ii_out : Forall (fun u => mn <= length u <= Nat.max 2 mx) out;
  ii_stored : Forall (fun q => length (snd q) < mx) (it_map t)
}.

Lemma image_inv_new : forall mn mx n now, image_inv mn mx [] [] [] n (image_tracker_new mn mx now).
Proof.
  intros. unfold image_tracker_new. constructor; cbn [it_min it_max it_map it_prev it_prev_frame app map concat]; auto;
    try (solve [constructor]); try (intros; contradiction).
  - apply wfm_nil.
  - intros i j p q Hi. destruct i; discriminate.
Qed.

Lemma segment_snoc : forall A (s l : list A) x, segment s l -> segment s (l ++ [x]).
Proof. intros A s l x [a [b E]]. exists a, (b ++ [x]). rewrite E, <- !app_assoc. reflexivity. Qed.
Lemma segment_suffix : forall s l x, ascending (l ++ [x]) -> s <> [] -> segment s (l ++ [x]) -> last s 0 = x ->
  exists a, l ++ [x] = a ++ s.
Proof.
  intros s l x H Hs [a [b E]] L. destruct b as [|y b]; [exists a; now rewrite app_nil_r in E|exfalso].
  assert (I : In x (y :: b)).
  { destruct (exists_last (l := y :: b)) as [b' [z Ez]]; [discriminate|]. rewrite Ez in E.
    rewrite !app_assoc in E. apply app_inj_tail in E. destruct E as [_ <-]. rewrite Ez. apply in_or_app. right. now left. }
  destruct (exists_last Hs) as [s' [z Ez]]. rewrite Ez, last_last in L. subst z.
  assert (K : forall (l1 l2 : list nat) z, ascending (l1 ++ z :: l2) -> Forall (lt z) l2).
  { clear. induction l1 as [|w l1 IH]; simpl; intros l2 z Ha; inversion Ha; subst; eauto. }
  assert (E' : l ++ [x] = (a ++ s') ++ x :: y :: b) by (rewrite E, Ez, <- !app_assoc; reflexivity).
  rewrite E' in H. apply K in H. rewrite Forall_forall in H. specialize (H x I). lia.
Qed.
Lemma frames_last : forall u, u <> [] -> last (frames u) 0 = back_frame u.
Proof.
  intros u H. destruct (exists_last H) as [u' [p E]]. rewrite E. unfold frames. rewrite map_app. simpl.
  rewrite last_last, back_app. reflexivity.
Qed.

Lemma ascending_snoc : forall l x, ascending l -> Forall (fun y => y < x) l -> ascending (l ++ [x]).
Proof.
  induction 1 as [|a l H IH F]; simpl; intros G; [repeat constructor|]. inversion G; subst. constructor; auto.
  - apply IH; auto.
  - apply Forall_app. split; auto.
Qed.
Lemma from_history_snoc : forall h x p, from_history h p -> from_history (h ++ [x]) p.
Proof. intros h x p [pts [q [H1 H2]]]. exists pts, q. split; auto. apply in_or_app. auto. Qed.
Lemma from_history_frame : forall h p x, from_history h p -> Forall (fun y => fst y < x) h -> fp_frame p < x.
Proof. intros h p x [pts [q [H1 _]]] F. rewrite Forall_forall in F. apply (F _ H1). Qed.

(** Frame without comparison *)
Lemma inv_skip : forall mn mx h out lost n n1 t frame after curr, image_inv mn mx h out lost n t -> n <= n1 ->
  Forall (fun x => fst x < frame) h -> NoDup (map pos2 curr) -> Forall (fun p => kp_class p = (-1)%Z) curr ->
  image_inv mn mx (h ++ [(frame, curr)]) out lost n1
    (mkIT (it_min t) (it_max t) (it_ratio t) curr frame after (it_map t)).
Proof.
  intros mn mx h out lost n n1 t frame after curr [] Hn Hf Np Cc.
  constructor; cbn [it_min it_max it_map it_prev it_prev_frame]; auto.
  - rewrite map_app. eapply Forall_impl; [|exact ii_tracks0]. intros u [A B]. split; auto. now apply segment_snoc.
  - eapply Forall_impl; [|exact ii_points0]. intros p [A B]. split; [lia|]. now apply from_history_snoc.
  - rewrite map_app. apply ascending_snoc; auto. rewrite Forall_map. exact Hf.
  - right. exists h, curr. auto.
  - eapply Forall_impl; [|exact Cc]. intros p Hp. now left.
  - intros i j p q Hi _ _ Hc. rewrite Forall_forall in Cc. exfalso. apply Hc, Cc. eapply nth_error_In; eauto.
  - intros p Hp E. exfalso. rewrite Forall_forall in ii_points0. destruct (ii_points0 p Hp) as [_ B].
    pose proof (from_history_frame h p frame B Hf). lia.
  - intros k u q _ Hq E. rewrite Forall_forall in Cc. rewrite (Cc q Hq) in E. lia.
Qed.

(** Frame with comparison *)
Lemma inv_compare : forall mn mx h out lost n n1 n' t frame now after curr ms P asg curr' m1 new kept,
  image_inv mn mx h out lost n t -> n <= n1 ->
  Forall (fun x => fst x < frame) h -> it_prev t <> [] ->
  NoDup (map pos2 curr) -> Forall (fun p => kp_class p = (-1)%Z) curr ->
  NoDup (map dm_query ms) -> NoDup (map dm_train ms) ->
  matched (it_prev t) curr (it_prev_frame t) (it_prev_time t) frame now n1 ms P asg n' ->
  push_points (it_map t) P = OK m1 -> length curr' = length curr ->
  (forall j id, In (j, id) asg -> exists c, nth_error curr j = Some c /\ nth_error curr' j = Some (set_class c id)) ->
  (forall j, ~ In j (map dm_train ms) -> nth_error curr' j = nth_error curr j) ->
  flush frame mn mx m1 = OK (new, kept) ->
  exists lost', image_inv mn mx (h ++ [(frame, curr)]) (out ++ new) lost' n'
    (mkIT (it_min t) (it_max t) (it_ratio t) curr' frame after kept) /\
  (forall u, In u new -> mx <= length u \/ back_frame u < frame) /\
  (forall k u, In (k, u) kept -> back_frame u = frame).
Proof.
  intros mn mx h out lost n n1 n' t frame now after curr ms P asg curr' m1 new kept I Hn Hf Hp Np Cc Nq Nt Hm Hpush Hlen Hasg Hrest Hfl.
  destruct I.
  destruct ii_prev0 as [[_ E]|[h' [pts [Eh Epos]]]]; [contradiction|].
  assert (Hpf : it_prev_frame t < frame).
  { rewrite Forall_forall in Hf. apply (Hf (it_prev_frame t, pts)). rewrite Eh. apply in_or_app. right. now left. }
  assert (Cn : Forall (fun p => kp_class p = (-1)%Z \/ (0 <= kp_class p < Z.of_nat n1)%Z) (it_prev t)).
  { eapply Forall_impl; [|exact ii_pcls0]. simpl. intros p Hpp. lia. }
  assert (Hneq : it_prev_frame t <> frame) by lia.
  destruct (matched_mono _ _ _ _ _ _ Hneq _ _ _ _ _ Hm) as [Hn' Hfst].
  pose proof (matched_in _ _ _ _ _ _ Hneq _ _ _ _ _ Hm) as Min.
  pose proof (matched_ids _ _ _ _ _ _ Hneq _ _ _ _ _ Hm) as Mids.
  pose proof (matched_ids_nodup _ _ _ _ _ _ n1 Hneq Cn ii_pdist0 _ _ _ _ _ (le_n n1) Hm Nq) as Nids.
  pose proof (matched_class _ _ _ _ _ _ n1 Hneq Cn ii_pdist0 _ _ _ _ _ (le_n n1) Hm Nq) as Mcls.
  pose proof (matched_labels _ _ _ _ _ _ n1 Hneq Cn ii_pdist0 _ _ _ _ _ (le_n n1) Hm Nq) as Mlab.
  pose proof (matched_places _ _ _ _ _ _ Hneq ii_ppos0 Np _ _ _ _ _ Hm Nq Nt) as Mpl.
  (* classes of pushed points *)
  assert (Pcl : forall x, In x P -> (0 <= kp_class (fp_kp x) < Z.of_nat n')%Z).
  { intros x Hx. destruct (Min x Hx) as [[i [q [_ [_ [_ [_ [_ A]]]]]]]|[j [q [A [_ _]]]]]; [lia|].
    destruct (Mids _ _ A) as [B|[i [r [B1 [B2 [B3 B4]]]]]]; [lia|].
    rewrite Forall_forall in Cn. destruct (Cn r (nth_error_In _ _ B2)); lia. }
  assert (PF : Forall (fun p => (0 <= kp_class (fp_kp p))%Z) P) by (apply Forall_forall; intros x Hx; apply Pcl in Hx; lia).
  destruct (push_points_spec P (it_map t) ii_wfm0 PF) as [m1' [E1 [W1 G1]]]. rewrite Hpush in E1. injection E1 as <-.
  pose proof (push_perm P _ _ ii_wfm0 Hpush) as Pm.
  rewrite flush_spec in Hfl by (intros k u Hi; now apply W1 in Hi). injection Hfl as Enew Ekept.
  set (lost2 := filter (fun u => negb (Nat.leb mn (length u))) (filter (done frame mx) (map snd m1))) in *.
  assert (Pm1 : Permutation (map snd m1) (new ++ lost2 ++ map snd kept)).
  { rewrite <- Enew, <- Ekept. rewrite (map_filter_snd _ _ (fun u => negb (done frame mx u)) m1).
    eapply perm_trans; [apply (filter_perm _ (done frame mx))|]. rewrite app_assoc. apply Permutation_app_tail. apply filter_perm. }
  assert (PermT : Permutation ((out ++ new) ++ (lost ++ lost2) ++ map snd kept) (out ++ lost ++ map snd m1)).
  { rewrite <- !app_assoc. apply Permutation_app_head.
    eapply perm_trans; [|apply Permutation_app_head, Permutation_sym, Pm1].
    rewrite !app_assoc. apply Permutation_app_tail. rewrite <- !app_assoc. 
    rewrite (Permutation_app_comm new). rewrite <- app_assoc. apply Permutation_app_head. apply Permutation_app_comm. }
  assert (PermC : Permutation (concat ((out ++ new) ++ (lost ++ lost2) ++ map snd kept))
    (concat (out ++ lost ++ map snd (it_map t)) ++ P)).
  { assert (K : forall (a b : list (list FeaturePoint)), Permutation a b -> Permutation (concat a) (concat b)).
    { clear. induction 1; simpl; auto.
      - now apply Permutation_app_head.
      - rewrite !app_assoc. apply Permutation_app_tail. apply Permutation_app_comm.
      - eapply perm_trans; eauto. }
    eapply perm_trans; [apply K, PermT|]. rewrite !concat_app, <- !app_assoc. do 2 apply Permutation_app_head. exact Pm. }
  set (A := concat (out ++ lost ++ map snd (it_map t))) in *.
  (* frames of pushed points *)
  assert (PA : forall x, In x P -> ~ In (place x) (map place A) /\ ~ In (label x) (map label A)).
  { intros x Hx. assert (Fr : fp_frame x = frame -> ~ In (fp_frame x) (map fp_frame A)).
    { intros E Hi. apply in_map_iff in Hi. destruct Hi as [y [Ey Hy]]. rewrite Forall_forall in ii_points0.
      destruct (ii_points0 y Hy) as [_ B]. pose proof (from_history_frame h y frame B Hf). lia. }
    destruct (Min x Hx) as [[i [q [B1 [B2 [B3 [B4 [B5 B6]]]]]]]|[j [q [B1 [B2 [B3 B4]]]]]].
    - split; intro Hi; apply in_map_iff in Hi; destruct Hi as [y [Ey Hy]].
      + unfold place in Ey. injection Ey as E1 E2 E3. destruct (ii_here0 y Hy) as [r [R1 [R2 R3]]]; [congruence|].
        apply In_nth_error in R1. destruct R1 as [i2 R1].
        assert (i2 = i) by (apply (nodup_nth_eq _ _ pos2 (it_prev t) _ _ r q ii_ppos0 R1 B2); rewrite R2, <- B5; unfold pos2; congruence).
        subst i2. rewrite B2 in R1. injection R1 as <-. rewrite B3 in R3.
        assert (Y : (0 <= kp_class (fp_kp y))%Z).
        { unfold A in Hy. apply in_concat in Hy. destruct Hy as [u [Hu Hyu]]. rewrite Forall_forall in ii_tracks0.
          destruct (ii_tracks0 u Hu) as [[_ [id [I1 I2]]] _]. rewrite Forall_forall in I2. rewrite (I2 y Hyu). auto. }
        lia.
      + unfold label in Ey. injection Ey as E1 E2. rewrite Forall_forall in ii_points0. destruct (ii_points0 y Hy) as [B _]. lia.
    - specialize (Fr B3). split; intro Hi; apply Fr; apply in_map_iff in Hi; destruct Hi as [y [Ey Hy]]; apply in_map_iff;
        exists y; split; auto; [unfold place in Ey|unfold label in Ey]; congruence. }
  assert (ND : forall (B : Type) (f : FeaturePoint -> B), NoDup (map f A) -> NoDup (map f P) -> (forall x, In x P -> ~ In (f x) (map f A)) -> NoDup (map f (A ++ P))).
  { clear. intros B f. generalize A as a. induction a as [|y a IH]; intros H1 H2 H3; auto. simpl in *. inversion H1; subst.
    constructor.
    - rewrite map_app. intro Hi. apply in_app_or in Hi. destruct Hi as [Hi|Hi]; auto.
      apply in_map_iff in Hi. destruct Hi as [x [Ex Hx]]. apply (H3 x Hx). left. auto.
    - apply IH; auto. intros x Hx Hi. apply (H3 x Hx). now right. }
  assert (HA : forall x, In x P -> from_history (h ++ [(frame, curr)]) x).
  { intros x Hx. destruct (Min x Hx) as [[i [q [B1 [B2 [B3 [B4 [B5 B6]]]]]]]|[j [q [B1 [B2 [B3 B4]]]]]].
    - rewrite Eh. assert (Q : exists q', nth_error pts i = Some q' /\ pos2 q = pos2 q').
      { assert (X : nth_error (map pos2 pts) i = Some (pos2 q)) by (rewrite <- Epos, nth_error_map, B2; reflexivity).
        rewrite nth_error_map in X. destruct (nth_error pts i) as [q'|]; [|discriminate]. simpl in X. exists q'. split; congruence. }
      destruct Q as [q' [Q1 Q2]]. exists pts, q'. rewrite B4. repeat split.
      + apply in_or_app. left. apply in_or_app. right. now left.
      + eapply nth_error_In; eauto.
      + congruence.
    - exists curr, q. rewrite B3. repeat split; auto; [apply in_or_app; right; now left|eapply nth_error_In; eauto]. }
  (* tracks of the new map *)
  assert (HT : forall k u, In (k, u) m1 -> segment (frames u) (map fst (h ++ [(frame, curr)])) /\ length u <= Nat.max 2 mx /\ back_frame u <= frame).
  { intros k u Hi. pose proof (in_mget m1 k u W1 Hi) as E. rewrite G1 in E.
    assert (Old : mget [] k (it_map t) <> [] -> In (k, mget [] k (it_map t)) (it_map t)) by (intro; apply mget_in; auto).
    assert (OldS : forall w, In (k, w) (it_map t) -> segment (frames w) (map fst h) /\ length w < mx /\ back_frame w < frame /\ w <> []).
    { intros w Hw. assert (Iw : In w (out ++ lost ++ map snd (it_map t))).
      { apply in_or_app. right. apply in_or_app. right. apply (in_map snd) in Hw. exact Hw. }
      destruct ii_wfm0 as [_ Hwf]. destruct (Hwf k w Hw) as [Hne _].
      rewrite Forall_forall in ii_tracks0. destruct (ii_tracks0 w Iw) as [_ S1].
      rewrite Forall_forall in ii_stored0. pose proof (ii_stored0 (k, w) Hw) as S2. simpl in S2. repeat split; auto.
      destruct (exists_last Hne) as [w' [p Ew]]. rewrite Ew, back_app.
      assert (Ip : In p A). { unfold A. apply in_concat. exists w. split; auto. rewrite Ew. apply in_or_app. right. now left. }
      rewrite Forall_forall in ii_points0. destruct (ii_points0 p Ip) as [_ B]. eapply from_history_frame; eauto. }
    rewrite map_app. cbn [map fst].
    destruct (Mcls k) as [F0|[[x [F0 [X1 [i [p [X2 X3]]]]]]|[x [y [F0 [X1 [X2 X3]]]]]]]; rewrite F0 in E.
    - rewrite app_nil_r in E. assert (Hne : u <> []) by (apply W1 in Hi; tauto).
      rewrite <- E in Hne. destruct (OldS _ (Old Hne)) as [S1 [S2 [S3 _]]]. rewrite E in *.
      split; [now apply segment_snoc|]. split; lia.
    - rewrite <- E, back_app, X1. destruct (mget [] k (it_map t)) as [|p0 w0] eqn:Ew.
      + cbn [app length]. split; [|split; lia]. exists (map fst h), []. unfold frames. simpl. now rewrite X1.
      + assert (Hw : In (k, p0 :: w0) (it_map t)) by (apply Old; discriminate).
        destruct (OldS _ Hw) as [S1 [S2 [S3 S4]]]. rewrite app_length. cbn [length] in S2 |- *. split; [|split; lia].
        assert (Bk : back_frame (p0 :: w0) = it_prev_frame t) by (eapply ii_last0; eauto; eapply nth_error_In; eauto).
        assert (Hh : map fst h = map fst h' ++ [it_prev_frame t]) by (rewrite Eh, map_app; reflexivity).
        rewrite Hh in S1, ii_frames0.
        destruct (segment_suffix (frames (p0 :: w0)) (map fst h') (it_prev_frame t) ii_frames0) as [a Ea]; auto.
        { discriminate. } { rewrite frames_last by discriminate. exact Bk. }
        rewrite Hh, Ea. exists a, []. rewrite app_nil_r. unfold frames. rewrite map_app. simpl. rewrite X1, <- app_assoc. reflexivity.
    - assert (Ew : mget [] k (it_map t) = []).
      { destruct (mget [] k (it_map t)) as [|p0 w0] eqn:Ew; [reflexivity|exfalso].
        assert (Hw : In (k, p0 :: w0) (it_map t)) by (apply Old; discriminate).
        assert (Ip : In p0 A).
        { unfold A. apply in_concat. exists (p0 :: w0). split; [|now left]. apply in_or_app. right. apply in_or_app. right.
          apply (in_map snd) in Hw. exact Hw. }
        rewrite Forall_forall in ii_points0. destruct (ii_points0 p0 Ip) as [B _].
        destruct ii_wfm0 as [_ Hwf]. destruct (Hwf k _ Hw) as [_ Hc]. inversion Hc as [|? ? Hc0 _]; subst. apply class_is_spec in Hc0. lia. }
      rewrite Ew in E. simpl in E. rewrite <- E. split; [|split; [cbn [length]; lia|]].
      + assert (Hh : map fst h = map fst h' ++ [it_prev_frame t]) by (rewrite Eh, map_app; reflexivity).
        rewrite Hh. exists (map fst h'), []. unfold frames. simpl. rewrite X1, X2, <- app_assoc. reflexivity.
      + unfold back_frame. simpl. lia. }
  assert (Keep : forall k u, In (k, u) kept -> In (k, u) m1 /\ back_frame u = frame /\ length u < mx).
  { intros k u Hi. rewrite <- Ekept in Hi. apply filter_In in Hi. destruct Hi as [Hi D]. simpl in D. apply negb_true_iff in D.
    unfold done in D. apply orb_false_iff in D. destruct D as [D1 D2]. apply Nat.ltb_ge in D1. apply Nat.leb_gt in D2.
    destruct (HT k u Hi) as [_ [_ B]]. repeat split; auto; lia. }
  assert (Wk : wfm kept).
  { rewrite <- Ekept. destruct W1 as [Ws Ww]. split; [now apply filter_sorted|]. intros k u Hi. apply filter_In in Hi. now apply Ww. }
  assert (Cls : forall j p, nth_error curr' j = Some p -> (kp_class p = (-1)%Z /\ nth_error curr j = Some p) \/ In (j, kp_class p) asg).
  { intros j p Hj. destruct (in_dec Nat.eq_dec j (map dm_train ms)) as [Hi|Hi].
    - right. rewrite <- Hfst in Hi. apply in_map_iff in Hi. destruct Hi as [[j' id] [Ej Hi]]. simpl in Ej. subst j'.
      destruct (Hasg _ _ Hi) as [c [C1 C2]]. rewrite Hj in C2. injection C2 as ->. exact Hi.
    - left. rewrite Hrest in Hj by auto. split; auto. rewrite Forall_forall in Cc. apply Cc. eapply nth_error_In; eauto. }
  assert (Cpos : map pos2 curr' = map pos2 curr).
  { apply nth_error_ext. intros j. rewrite !nth_error_map. destruct (nth_error curr' j) as [p|] eqn:Ej.
    - destruct (in_dec Nat.eq_dec j (map dm_train ms)) as [Hi|Hi].
      + rewrite <- Hfst in Hi. apply in_map_iff in Hi. destruct Hi as [[j' id] [Ej' Hi]]. simpl in Ej'. subst j'.
        destruct (Hasg _ _ Hi) as [c [C1 C2]]. rewrite C1. rewrite Ej in C2. injection C2 as ->. reflexivity.
      + rewrite Hrest in Ej by auto. now rewrite Ej.
    - apply nth_error_None in Ej. rewrite Hlen in Ej. apply nth_error_None in Ej. now rewrite Ej. }
  exists (lost ++ lost2). split; [constructor; cbn [it_min it_max it_map it_prev it_prev_frame]|split].
  - exact ii_min0.
  - exact ii_max0.
  - exact Wk.
  - eapply Permutation_NoDup; [apply Permutation_sym, Permutation_map, PermC|]. apply ND; auto. intros x Hx. now apply PA.
  - eapply Permutation_NoDup; [apply Permutation_sym, Permutation_map, PermC|]. apply ND; auto. intros x Hx. now apply PA.
  - eapply Permutation_Forall; [apply Permutation_sym, PermT|]. rewrite app_assoc in ii_tracks0 |- *. apply Forall_app in ii_tracks0.
    destruct ii_tracks0 as [T1 _]. apply Forall_app. split.
    + eapply Forall_impl; [|exact T1]. intros u [U1 U2]. split; auto. rewrite map_app. now apply segment_snoc.
    + apply Forall_forall. intros u Hu. apply in_map_iff in Hu. destruct Hu as [[k u'] [Eu Hu]]. simpl in Eu. subst u'.
      destruct (HT k u Hu) as [S1 _]. destruct W1 as [_ Ww]. destruct (Ww k u Hu) as [Un Uc]. split; [|exact S1].
      split; [exact Un|]. exists (Z.of_nat k). split; [lia|]. eapply Forall_impl; [|exact Uc]. intros p Hpp. now apply class_is_spec.
  - eapply Permutation_Forall; [apply Permutation_sym, PermC|]. apply Forall_app. split.
    + eapply Forall_impl; [|exact ii_points0]. intros p [B1 B2]. split; [lia|]. now apply from_history_snoc.
    + apply Forall_forall. intros x Hx. split; [apply (Pcl x Hx)|now apply HA].
  - rewrite map_app. apply ascending_snoc; auto. rewrite Forall_map. exact Hf.
  - right. exists h, curr. split; auto.
  - rewrite Cpos. exact Np.
  - apply Forall_forall. intros p Hpp. apply In_nth_error in Hpp. destruct Hpp as [j Hj].
    destruct (Cls j p Hj) as [[B _]|B]; [auto|]. right.
    destruct (Mids _ _ B) as [B1|[i [r [B1 [B2 [B3 B4]]]]]]; [lia|].
    rewrite Forall_forall in Cn. destruct (Cn r (nth_error_In _ _ B2)); lia.
  - intros i j p q Hi Hj E1 E2. destruct (Cls i p Hi) as [[B _]|B]; [contradiction|].
    destruct (Cls j q Hj) as [[B' _]|B']; [congruence|].
    apply In_nth_error in B. destruct B as [a B]. apply In_nth_error in B'. destruct B' as [b B'].
    assert (a = b) by (apply (nodup_nth_eq _ _ snd asg a b _ _ Nids B B'); exact E1). subst b. rewrite B in B'.
    now injection B'.
  - intros p Hpp E. apply (Permutation_in _ PermC) in Hpp. apply in_app_or in Hpp. destruct Hpp as [Hpp|Hpp].
    + exfalso. rewrite Forall_forall in ii_points0. destruct (ii_points0 p Hpp) as [_ B].
      pose proof (from_history_frame h p frame B Hf). lia.
    + destruct (Min p Hpp) as [[i [q [B1 [B2 [B3 [B4 [B5 B6]]]]]]]|[j [q [B1 [B2 [B3 B4]]]]]]; [lia|].
      destruct (Hasg _ _ B1) as [c [C1 C2]]. exists (set_class c (kp_class (fp_kp p))).
      split; [eapply nth_error_In; eauto|]. split; [|reflexivity]. rewrite B2 in C1. injection C1 as <-. rewrite B4. reflexivity.
  - intros k u q Hk _ _. now apply Keep in Hk.
  - apply Forall_app. split; [exact ii_out0|]. apply Forall_forall. intros u Hu. rewrite <- Enew in Hu.
    apply filter_In in Hu. destruct Hu as [Hu L]. apply Nat.leb_le in L. apply filter_In in Hu. destruct Hu as [Hu _].
    apply in_map_iff in Hu. destruct Hu as [[k u'] [Eu Hu]]. simpl in Eu. subst u'. destruct (HT k u Hu) as [_ [B _]]. lia.
  - apply Forall_forall. intros [k u] Hk. now apply Keep in Hk.
  - intros u Hu. rewrite <- Enew in Hu. apply filter_In in Hu. destruct Hu as [Hu _]. apply filter_In in Hu. destruct Hu as [_ D].
    unfold done in D. apply orb_true_iff in D. destruct D as [D|D]; [right; now apply Nat.ltb_lt|left; now apply Nat.leb_le].
  - intros k u Hk. now apply Keep in Hk.
Qed.

(** *** One image *)
Lemma inv_next : forall mn mx h out lost n t now after frame im, image_inv mn mx h out lost n t ->
  Forall (fun x => fst x < frame) h -> image_ok t im ->
  exists new n' t' lost', Track t n now after frame im = OK (new, n', t') /\
    image_inv mn mx (h ++ [(frame, current_points im)]) (out ++ new) lost' n' t' /\
    (it_prev t <> [] -> current_points im <> [] ->
     (forall u, In u new -> mx <= length u \/ back_frame u < frame) /\ (forall k u, In (k, u) (it_map t') -> back_frame u = frame)) /\
    (it_prev t = [] \/ current_points im = [] -> new = [] /\ it_map t' = it_map t).
Proof.
  intros mn mx h out lost n t now after frame im I Hf Hok.
  destruct (current_facts t im Hok) as [Np [Cc _]]. unfold Track.
  destruct (it_prev t) as [|p0 pr] eqn:Ep.
  { cbn [length Nat.eqb negb andb]. exists [], (n + im_ids im). eexists. exists lost. split; [reflexivity|]. split; [|split].
    - rewrite app_nil_r. apply inv_skip with (n := n); auto. lia.
    - intros []; auto.
    - auto. }
  destruct (current_points im) as [|c0 cr] eqn:Ec.
  { cbn [length Nat.eqb negb andb]. exists [], (n + im_ids im). eexists. exists lost. split; [reflexivity|]. split; [|split].
    - rewrite app_nil_r. apply inv_skip with (n := n); auto. lia.
    - intros _ []; auto.
    - auto. }
  cbn [length Nat.eqb negb andb]. rewrite <- Ep, <- Ec in *.
  destruct Hok as [_ [_ Hn]]. destruct Hn as [Nf [Nb Hm]]; [congruence|congruence|].
  destruct (final_ok t im (current_points im) Nf Nb Hm) as [ms Ems].
  destruct (final_injective t im _ ms Nf Nb Ems) as [Nq [Nt Fb]].
  rewrite Ems. cbn [bind].
  destruct (track_matches_spec t frame now (it_prev t) (current_points im) ms (n + im_ids im) (it_prev t) (current_points im) (it_map t))
    as [P [asg [n' [prev' [curr' [fm' [R1 [R2 [R3 [R4 [R5 R6]]]]]]]]]]]; auto.
  { unfold classed. eapply Forall_impl; [|apply (ii_pcls _ _ _ _ _ _ _ I)]. simpl. intros p Hp. lia. }
  { apply (ii_wfm _ _ _ _ _ _ _ I). }
  rewrite R1. cbn [bind]. rewrite (ii_min _ _ _ _ _ _ _ I), (ii_max _ _ _ _ _ _ _ I).
  assert (W : wfm fm').
  { destruct (push_points_spec P (it_map t)) as [m' [E [W _]]].
    - apply (ii_wfm _ _ _ _ _ _ _ I).
    - clear - R3. revert R3. generalize (it_map t). induction P as [|p P IH]; intros m H; constructor; simpl in H;
        apply bind_OK in H; destruct H as [m1 [H1 H2]]; [|eapply IH; eauto].
      unfold push_point in H1. destruct (Z.leb 0 (kp_class (fp_kp p))) eqn:E; [now apply Z.leb_le|discriminate].
    - rewrite R3 in E. injection E as <-. exact W. }
  destruct (flush frame mn mx fm') as [[new kept]|] eqn:Efl; [|rewrite flush_spec in Efl by (intros k u Hi; now apply W in Hi); discriminate].
  cbn [bind].
  destruct (inv_compare mn mx h out lost n (n + im_ids im) n' t frame now after (current_points im) ms P asg curr' fm' new kept)
    as [lost' [I' [T1 T2]]]; auto; try lia; try congruence.
  rewrite (ii_min _ _ _ _ _ _ _ I), (ii_max _ _ _ _ _ _ _ I) in I'.
  eexists. eexists. eexists. exists lost'. split; [reflexivity|]. split; [exact I'|]. split; [intros _ _; split; auto|].
  intros [E|E]; congruence.
Qed.

Lemma imaged_inv : forall mn mx h out n t, imaged mn mx h out n t -> exists lost, image_inv mn mx h out lost n t.
Proof.
  induction 1 as [n now|h out n t frame now after im new n' t' _ [lost IH] Hf Hok H].
  - exists []. apply image_inv_new.
  - destruct (inv_next mn mx h out lost n t now after frame im IH Hf Hok) as [new2 [n2 [t2 [lost' [E [I _]]]]]].
    rewrite H in E. injection E as <- <- <-. eauto.
Qed.

(** *** Statements *)
Lemma image_total : forall mn mx h out n t now after frame im, imaged mn mx h out n t ->
  Forall (fun x => fst x < frame) h -> image_ok t im -> exists new n' t',
  Track t n now after frame im = OK (new, n', t').
Proof.
  intros mn mx h out n t now after frame im H Hf Hok. destruct (imaged_inv _ _ _ _ _ _ H) as [lost I].
  destruct (inv_next mn mx h out lost n t now after frame im I Hf Hok) as [new [n' [t' [lost' [E _]]]]]. eauto.
Qed.

Lemma image_once : forall mn mx h out n t, imaged mn mx h out n t ->
  NoDup (map place (concat (out ++ map snd (it_map t)))) /\ NoDup (map label (concat (out ++ map snd (it_map t)))).
Proof.
  intros mn mx h out n t H. destruct (imaged_inv _ _ _ _ _ _ H) as [lost []].
  assert (K : sub (concat (out ++ map snd (it_map t))) (concat (out ++ lost ++ map snd (it_map t)))).
  { rewrite !concat_app. generalize (concat (map snd (it_map t))) as a. generalize (concat lost) as b. generalize (concat out) as c.
    clear. induction c as [|x c IH]; intros b a; simpl; [|now apply sub_keep].
    induction b as [|y b IHb]; simpl; [apply sub_refl|now apply sub_skip]. }
  split; (eapply sub_nodup; [apply sub_map, K|]); auto.
Qed.

Lemma image_tracks : forall mn mx h out n t, imaged mn mx h out n t -> forall u, In u out ->
  one_feature u /\ mn <= length u <= Nat.max 2 mx /\ segment (frames u) (map fst h).
Proof.
  intros mn mx h out n t H u Hu. destruct (imaged_inv _ _ _ _ _ _ H) as [lost []].
  rewrite Forall_forall in ii_tracks0. destruct (ii_tracks0 u) as [A B]; [apply in_or_app; auto|].
  rewrite Forall_forall in ii_out0. auto.
Qed.

Lemma image_seen : forall mn mx h out n t, imaged mn mx h out n t -> forall u p, In u out -> In p u ->
  exists pts q, In (fp_frame p, pts) h /\ In q pts /\ kp_x (fp_kp p) = kp_x q /\ kp_y (fp_kp p) = kp_y q.
Proof.
  intros mn mx h out n t H u p Hu Hp. destruct (imaged_inv _ _ _ _ _ _ H) as [lost []].
  rewrite Forall_forall in ii_points0. destruct (ii_points0 p) as [_ [pts [q [A [B C]]]]].
  { apply in_concat. exists u. split; auto. apply in_or_app. auto. }
  exists pts, q. unfold pos2 in C. injection C as C1 C2. auto.
Qed.

Lemma image_timing : forall mn mx h out n t now after frame im new n' t', imaged mn mx h out n t ->
  Forall (fun x => fst x < frame) h -> image_ok t im -> it_prev t <> [] -> current_points im <> [] ->
  Track t n now after frame im = OK (new, n', t') ->
  (forall u, In u new -> mx <= length u \/ back_frame u < frame) /\
  (forall k u, In (k, u) (it_map t') -> length u < mx /\ back_frame u = frame).
Proof.
  intros mn mx h out n t now after frame im new n' t' H Hf Hok Hp Hc HT. destruct (imaged_inv _ _ _ _ _ _ H) as [lost I].
  destruct (inv_next mn mx h out lost n t now after frame im I Hf Hok) as [new2 [n2 [t2 [lost' [E [I' [T _]]]]]]].
  rewrite HT in E. injection E as <- <- <-. destruct (T Hp Hc) as [T1 T2]. split; auto.
  intros k u Hk. split; [|eauto]. pose proof (ii_stored _ _ _ _ _ _ _ I') as F. rewrite Forall_forall in F. apply (F _ Hk).
Qed.

Lemma image_idle : forall t n now after frame im, it_prev t = [] \/ current_points im = [] ->
  Track t n now after frame im = OK ([], n + im_ids im,
    mkIT (it_min t) (it_max t) (it_ratio t) (current_points im) frame after (it_map t)).
Proof.
  intros t n now after frame im H. unfold Track. destruct H as [E|E]; rewrite E; cbn [length Nat.eqb negb andb]; [reflexivity|].
  rewrite andb_false_r. reflexivity.
Qed.
