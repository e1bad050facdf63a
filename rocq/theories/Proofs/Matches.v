(** Grid thinning and match filters. *)
From Coq Require Import Reals List Arith ZArith Bool Lia Lra.
From Verif Require Import Base.Res Base.RDec Model.MathHelper Model.Ekf Model.MsckfUpdater Model.Trackers
  Spec.Sub Spec.Matches.
Import ListNotations.
Open Scope R_scope.

Ltac subc := first [apply sub_keep | apply sub_skip | apply sub_nil].
Lemma sub_refl : forall A (l : list A), sub l l.
Proof. induction l; subc; auto. Qed.
Lemma sub_empty : forall A (l : list A), sub [] l.
Proof. induction l; subc; auto. Qed.
Lemma sub_in : forall A (l m : list A), sub l m -> forall x, In x l -> In x m.
Proof. induction 1; simpl; intros y Hy; auto. destruct Hy; auto. Qed.
Lemma sub_trans : forall A (a b c : list A), sub a b -> sub b c -> sub a c.
Proof.
  intros A a b c H1 H2. revert a H1. induction H2; intros a H1.
  - assumption.
  - constructor. auto.
  - inversion H1; subst; [constructor; auto | apply sub_keep; auto].
Qed.
Lemma sub_map : forall A B (f : A -> B) l m, sub l m -> sub (map f l) (map f m).
Proof. induction 1; simpl; subc; auto. Qed.
Lemma sub_nodup : forall A (l m : list A), sub l m -> NoDup m -> NoDup l.
Proof.
  induction 1; intros H1; auto; inversion H1; subst; auto.
  constructor; auto. intro Hx. apply H3. eapply sub_in; eauto.
Qed.
Lemma sub_filter : forall A (f : A -> bool) l, sub (filter f l) l.
Proof. induction l; simpl; [constructor|]. destruct (f a); subc; auto. Qed.

(** *** Integer parts *)
Lemma Int_part_is : forall x z, IZR z <= x < IZR z + 1 -> Int_part x = z.
Proof.
  intros x z [H1 H2]. destruct (base_Int_part x) as [H3 H4].
  assert (A : IZR (Int_part x) < IZR z + 1) by lra.
  assert (B : IZR z < IZR (Int_part x) + 1) by lra.
  rewrite <- plus_IZR in A, B. apply lt_IZR in A. apply lt_IZR in B. lia.
Qed.
Lemma Int_part_bounds : forall x, IZR (Int_part x) <= x < IZR (Int_part x) + 1.
Proof. intros x. destruct (base_Int_part x). lra. Qed.
Lemma trunc_is : forall x z, (0 <= z)%Z -> IZR z <= x < IZR z + 1 -> trunc x = z.
Proof.
  intros x z Hz H. unfold trunc. apply IZR_le in Hz. rewrite Rltb_ff by lra. now apply Int_part_is.
Qed.
Lemma trunc_small : forall x, -1 < x < 0 -> trunc x = 0%Z.
Proof.
  intros x H. unfold trunc. rewrite Rltb_true by lra. rewrite (Int_part_is (- x) 0); [reflexivity|]. simpl. lra.
Qed.
Lemma trunc_nonneg : forall x, (0 <= trunc x)%Z -> -1 < x.
Proof.
  intros x H. destruct (Rlt_dec (-1) x) as [|N]; auto. exfalso. unfold trunc in H.
  rewrite Rltb_true in H by lra. destruct (Int_part_bounds (- x)) as [_ H2].
  assert (A : 1 < IZR (Int_part (- x)) + 1) by lra.
  rewrite <- plus_IZR in A. apply lt_IZR in A. lia.
Qed.
Lemma trunc_lt : forall x z, (0 <= z)%Z -> (trunc x < z)%Z -> x < IZR z.
Proof.
  intros x z Hz H. unfold trunc in H. apply IZR_le in Hz. destruct (Rltb x 0) eqn:E.
  - apply Rltb_spec in E. lra.
  - destruct (Int_part_bounds x). assert (A : (Int_part x + 1 <= z)%Z) by lia.
    apply IZR_le in A. rewrite plus_IZR in A. lra.
Qed.
Lemma trunc_lt' : forall x z, 0 <= x < IZR z -> (0 <= trunc x < z)%Z.
Proof.
  intros x z H. unfold trunc. rewrite Rltb_ff by lra. destruct (Int_part_bounds x) as [A B]. split.
  - assert (C : 0 < IZR (Int_part x) + 1) by lra. rewrite <- plus_IZR in C. apply lt_IZR in C. lia.
  - apply lt_IZR. lra.
Qed.
Lemma cell_square : forall x a, (0 <= a)%Z -> 10 * IZR a <= x < 10 * IZR a + 10 -> cell_of x = a.
Proof. intros x a Ha H. unfold cell_of, cell_width. apply trunc_is; [auto|]. lra. Qed.
Lemma cell_small : forall x, -1 < x < 0 -> cell_of x = 0%Z.
Proof. intros. unfold cell_of, cell_width. apply trunc_small. lra. Qed.
Lemma cell_bounds : forall x, 0 <= x -> (0 <= cell_of x)%Z /\ 10 * IZR (cell_of x) <= x < 10 * IZR (cell_of x) + 10.
Proof.
  intros x H. unfold cell_of, cell_width, trunc. rewrite Rltb_ff by lra.
  destruct (Int_part_bounds (x / 10)) as [A B]. split; [|lra].
  assert (C : 0 < IZR (Int_part (x / 10)) + 1) by lra. rewrite <- plus_IZR in C. apply lt_IZR in C. lia.
Qed.

(** *** Grid thinning *)
Lemma in_grid_true : forall r c p, in_grid r c p = true <->
  (0 <= cell_of (kp_x p) < cell_of (IZR c))%Z /\ (0 <= cell_of (kp_y p) < cell_of (IZR r))%Z /\
  (0 <= trunc (kp_x p) < c)%Z /\ (0 <= trunc (kp_y p) < r)%Z.
Proof.
  intros. unfold in_grid. rewrite negb_true_iff, !orb_false_iff, !Z.ltb_ge, !Z.leb_gt. intuition lia.
Qed.

Lemma same_cell_spec : forall a b, same_cell a b = true <-> a = b.
Proof.
  intros [a1 a2] [b1 b2]. unfold same_cell. simpl. rewrite andb_true_iff, !Z.eqb_eq. split; [intros []; congruence|].
  intros E; injection E; auto.
Qed.
Lemma taken_spec : forall p t, existsb (same_cell (cell p)) t = true <-> In (cell p) t.
Proof.
  intros. rewrite existsb_exists. split.
  - intros [x [H1 H2]]. apply same_cell_spec in H2. now rewrite H2.
  - intros H. exists (cell p). split; auto. now apply same_cell_spec.
Qed.

Lemma grid_sub : forall r c l t, sub (grid_loop r c t l) l.
Proof.
  induction l as [|p l IH]; simpl; intros t; [constructor|].
  destruct (negb (in_grid r c p)); [constructor; auto|].
  destruct (existsb _ t); subc; auto.
Qed.
Lemma grid_in : forall r c l t p, In p (grid_loop r c t l) -> in_grid r c p = true /\ ~ In (cell p) t.
Proof.
  induction l as [|q l IH]; simpl; intros t p H; [contradiction|].
  destruct (in_grid r c q) eqn:E; simpl in H; [|eauto].
  destruct (existsb (same_cell (cell q)) t) eqn:E2; [eauto|].
  destruct H as [<-|H].
  - split; auto. intro Hi. apply taken_spec in Hi. congruence.
  - apply IH in H. destruct H as [H1 H2]. split; auto. intro Hi. apply H2. now right.
Qed.
Lemma grid_cells : forall r c l t, NoDup (map cell (grid_loop r c t l)).
Proof.
  induction l as [|q l IH]; simpl; intros t; [constructor|].
  destruct (in_grid r c q) eqn:E; simpl; auto.
  destruct (existsb (same_cell (cell q)) t) eqn:E2; auto.
  simpl. constructor; auto. intro Hi. apply in_map_iff in Hi. destruct Hi as [p [H1 H2]].
  apply grid_in in H2. destruct H2 as [_ H2]. apply H2. left. auto.
Qed.

Lemma grid_cover : forall r c l t i p, nth_error l i = Some p -> in_grid r c p = true ->
  In (cell p) t \/ exists j q, (j <= i)%nat /\ nth_error l j = Some q /\ In q (grid_loop r c t l) /\ cell q = cell p.
Proof.
  induction l as [|a l IH]; intros t i p H G; [destruct i; discriminate|].
  assert (K : forall t', In (cell p) t' \/ (exists j q, (j <= i)%nat /\ nth_error (a :: l) j = Some q /\
     In q (grid_loop r c t' l) /\ cell q = cell p) \/ i = O).
  { intros t'. destruct i as [|i]; auto. simpl in H. destruct (IH t' i p H G) as [|[j [q [H1 [H2 [H3 H4]]]]]]; auto.
    right. left. exists (S j), q. repeat split; auto. lia. }
  simpl. destruct (in_grid r c a) eqn:Ga; simpl.
  - destruct (existsb (same_cell (cell a)) t) eqn:E.
    + destruct (K t) as [|[|E0]]; auto. subst. simpl in H. injection H as ->. left. now apply taken_spec.
    + destruct (K (cell a :: t)) as [[E1|]|[[j [q [H1 [H2 [H3 H4]]]]]|E0]]; auto.
      * right. exists O, a. simpl. repeat split; auto. lia.
      * right. exists j, q. repeat split; auto. now right.
      * subst. simpl in H. injection H as ->. right. exists O, p. simpl. auto.
  - destruct (K t) as [|[|E0]]; auto. subst. simpl in H. injection H as ->. congruence.
Qed.

Lemma square_cell : forall a b p q r c, in_grid r c p = true -> in_grid r c q = true ->
  in_square a b p -> in_square a b q -> cell p = cell q.
Proof.
  assert (K : forall x y a, -1 < x -> -1 < y -> 10 * IZR a <= x < 10 * IZR a + 10 -> 10 * IZR a <= y < 10 * IZR a + 10 ->
    cell_of x = cell_of y).
  { intros x y a Hx Hy H1 H2. destruct (Z_lt_le_dec a 0) as [Ha|Ha].
    - assert (A : (a <= -1)%Z) by lia. apply IZR_le in A.
      rewrite !cell_small by lra. reflexivity.
    - rewrite !(cell_square _ a) by auto. reflexivity. }
  intros a b p q r c Gp Gq [P1 P2] [Q1 Q2]. apply in_grid_true in Gp. apply in_grid_true in Gq.
  destruct Gp as [_ [_ [[Gp1 _] [Gp2 _]]]]. destruct Gq as [_ [_ [[Gq1 _] [Gq2 _]]]].
  apply trunc_nonneg in Gp1. apply trunc_nonneg in Gp2. apply trunc_nonneg in Gq1. apply trunc_nonneg in Gq2.
  unfold cell. f_equal; eauto.
Qed.

Lemma nodup_pairs : forall A B (f : A -> B) l, NoDup (map f l) -> ForallOrdPairs (fun x y => f x <> f y) l.
Proof.
  induction l; simpl; intros H; constructor; inversion H; subst; auto.
  apply Forall_forall. intros x Hx E. apply H2. rewrite E. now apply in_map.
Qed.
Lemma pairs_impl : forall A (P Q : A -> A -> Prop) l, (forall x y, In x l -> In y l -> P x y -> Q x y) ->
  ForallOrdPairs P l -> ForallOrdPairs Q l.
Proof.
  intros A P Q l H F. induction F; constructor.
  - rewrite Forall_forall in *. intros x Hx. apply H; simpl; auto.
  - apply IHF. intros; apply H; simpl; auto.
Qed.

Lemma grid_subsequence : forall rows cols l, sub (GridFeatures rows cols l) l.
Proof. intros. apply grid_sub. Qed.
Lemma grid_one_per_square : forall rows cols l,
  ForallOrdPairs (fun p q => ~ together p q) (GridFeatures rows cols l).
Proof.
  intros. eapply pairs_impl; [|apply nodup_pairs, (grid_cells rows cols l [])].
  intros x y Hx Hy Hn [a [b [H1 H2]]]. apply Hn.
  apply grid_in in Hx. apply grid_in in Hy. eapply square_cell; intuition eauto.
Qed.
Lemma grid_inside : forall rows cols l p, In p (GridFeatures rows cols l) ->
  (0 <= kp_x p -> 0 <= kp_y p -> in_image rows cols p) /\ -1 < kp_x p /\ -1 < kp_y p.
Proof.
  intros rows cols l p H. apply grid_in in H. destruct H as [G _]. apply in_grid_true in G.
  destruct G as [_ [_ [[A B] [C D]]]]. repeat split; auto; try (now apply trunc_nonneg).
  - apply trunc_lt; [lia|auto].
  - apply trunc_lt; [lia|auto].
Qed.
Lemma grid_representative : forall rows cols l i p, Forall (fun q => 0 <= kp_x q /\ 0 <= kp_y q) l ->
  nth_error l i = Some p -> in_full_square rows cols p ->
  exists j q, (j <= i)%nat /\ nth_error l j = Some q /\ In q (GridFeatures rows cols l) /\ together p q.
Proof.
  intros rows cols l i p F H [a [b [[S1 S2] [Ha [Hb [Hc Hr]]]]]].
  assert (Ca : cell_of (kp_x p) = a) by (apply cell_square; auto).
  assert (Cb : cell_of (kp_y p) = b) by (apply cell_square; auto).
  assert (L : forall z w, (0 <= z)%Z -> (10 * z + 10 <= w)%Z -> (z < cell_of (IZR w))%Z).
  { intros z w Hz Hw. apply IZR_le in Hw. rewrite plus_IZR, mult_IZR in Hw. pose proof (IZR_le _ _ Hz).
    destruct (cell_bounds (IZR w)) as [_ [_ K]]; [lra|]. apply lt_IZR. lra. }
  assert (G : in_grid rows cols p = true).
  { rewrite Forall_forall in F. destruct (F p (nth_error_In _ _ H)) as [Fx Fy].
    pose proof (L a cols Ha Hc). pose proof (L b rows Hb Hr).
    apply in_grid_true. rewrite Ca, Cb. apply IZR_le in Hc. apply IZR_le in Hr.
    rewrite plus_IZR, mult_IZR in Hc, Hr.
    split; [lia|]. split; [lia|]. split; apply trunc_lt'; lra. }
  destruct (grid_cover rows cols l [] i p H G) as [[]|[j [q [H1 [H2 [H3 H4]]]]]].
  exists j, q. repeat split; auto. rewrite Forall_forall in F. destruct (F q (nth_error_In _ _ H2)) as [Fx Fy].
  exists a, b. split; [now split|]. injection H4 as E1 E2.
  destruct (cell_bounds _ Fx) as [_ Bx]. destruct (cell_bounds _ Fy) as [_ By].
  rewrite E2, Ca in Bx. rewrite E1, Cb in By. split; auto.
Qed.

Lemma grid_edge : exists rows cols p, in_image rows cols p /\ GridFeatures rows cols [p] = [].
Proof.
  exists 20%Z, 15%Z, (mkKP 12 3 (-1)). split; [unfold in_image; simpl; lra|].
  unfold GridFeatures. simpl. replace (in_grid 20 15 (mkKP 12 3 (-1))) with false; [reflexivity|].
  symmetry. apply not_true_iff_false. rewrite in_grid_true. intros [[_ H] _]. simpl in H.
  rewrite (cell_square 12 1), (cell_square 15 1) in H; simpl; try lra; lia.
Qed.

(** *** Match filters *)
Lemma ratio_spec : forall r ms, 0 < r -> Forall (Forall (fun d => 0 <= dm_dist d)) ms ->
  Forall2 (fun m m' =>
    (m' = m \/ m' = []) /\ (length m = 1%nat -> m' = []) /\
    (forall a b, m = [a; b] -> (m' = [] <-> dm_dist a > r * dm_dist b)) /\
    (length m <> 1%nat -> length m <> 2%nat -> m' = m)) ms (RatioTest r ms).
Proof.
  intros r ms Hr F. induction F as [|m ms Fm F IH]; simpl; constructor; auto.
  destruct m as [|a [|b [|c m]]]; simpl.
  - repeat split; auto; try discriminate.
  - repeat split; auto; try discriminate; intros; exfalso; auto.
  - inversion Fm as [|? ? Fa F2]; subst. inversion F2 as [|? ? Fb _]; subst.
    assert (Q : quot_above (dm_dist a) (dm_dist b) r = true <-> dm_dist a > r * dm_dist b).
    { unfold quot_above. destruct (Reqb (dm_dist b) 0) eqn:E.
      - apply Reqb_spec in E. rewrite E, Rmult_0_r, Rltb_spec. lra.
      - apply Reqb_false in E. rewrite Rltb_spec. assert (P : 0 < dm_dist b) by lra. split; intros H.
        + apply Rmult_lt_compat_r with (r := dm_dist b) in H; auto.
          replace (dm_dist a / dm_dist b * dm_dist b) with (dm_dist a) in H by (field; lra). lra.
        + apply Rmult_lt_reg_r with (dm_dist b); auto.
          replace (dm_dist a / dm_dist b * dm_dist b) with (dm_dist a) by (field; lra). lra. }
    destruct (quot_above (dm_dist a) (dm_dist b) r).
    + split; [auto|]. split; [intros; discriminate|]. split; [|intros _ H; exfalso; auto].
      intros x y E. injection E as <- <-. tauto.
    + split; [auto|]. split; [intros; discriminate|]. split; [|auto].
      intros x y E. injection E as <- <-. split; [discriminate|]. intros H. apply Q in H. discriminate.
  - repeat split; auto; try discriminate.
Qed.

Lemma symmetry_in : forall f b d, In d (SymmetryTest f b) <->
  best f d /\ exists e, best b e /\ dm_train e = dm_query d /\ dm_query e = dm_train d.
Proof.
  intros f b d.
  assert (M : forall x, existsb (mutual x) b = true <->
    exists e, best b e /\ dm_train e = dm_query x /\ dm_query e = dm_train x).
  { intros x. rewrite existsb_exists. split.
    - intros [m [H1 H2]]. destruct m as [|e [|e2 [|]]]; try discriminate. simpl in H2.
      apply andb_true_iff in H2. rewrite !Nat.eqb_eq in H2. exists e. split; [now exists e2|]. intuition.
    - intros [e [[e2 H1] [H2 H3]]]. exists [e; e2]. split; auto. simpl. rewrite H2, H3, !Nat.eqb_refl. reflexivity. }
  induction f as [|m f IH]; simpl.
  - split; [tauto|]. intros [[e []] _].
  - destruct m as [|x [|y [|z m]]].
    + rewrite IH. unfold best. simpl. split; intros [[e H] K]; split; auto; exists e; intuition discriminate.
    + rewrite IH. unfold best. simpl. split; intros [[e H] K]; split; auto; exists e; intuition discriminate.
    + destruct (existsb (mutual x) b) eqn:E.
      * simpl. rewrite IH. split.
        -- intros [<-|[[e H] K]]; [split; [exists y; now left | now apply M] | split; auto; exists e; now right].
        -- intros [[e [H|H]] K]; [injection H as -> _; now left | right; split; auto; now exists e].
      * rewrite IH. split; intros [[e H] K]; split; auto.
        -- exists e. now right.
        -- destruct H as [H|H]; [|now exists e]. injection H as -> _. apply M in K. congruence.
    + rewrite IH. unfold best. simpl. split; intros [[e H] K]; split; auto; exists e; intuition discriminate.
Qed.

Definition firsts (ms : list (list DMatch)) : list DMatch :=
  flat_map (fun m => match m with [a; _] => [a] | _ => [] end) ms.
Lemma symmetry_firsts : forall f b, sub (SymmetryTest f b) (firsts f).
Proof.
  induction f as [|m f IH]; simpl; intros b; [constructor|].
  destruct m as [|x [|y [|z m]]]; simpl; auto.
  destruct (existsb (mutual x) b); subc; auto.
Qed.
Lemma firsts_queries : forall f s, (forall i m d, nth_error f i = Some m -> In d m -> dm_query d = (s + i)%nat) ->
  NoDup (map dm_query (firsts f)) /\ Forall (fun d => (s <= dm_query d)%nat) (firsts f).
Proof.
  induction f as [|m f IH]; simpl; intros s H; [repeat constructor|].
  destruct (IH (S s)) as [N F].
  { intros i m' d H1 H2. rewrite (H (S i) m' d H1 H2). lia. }
  assert (F' : Forall (fun d => (s <= dm_query d)%nat) (firsts f)) by (eapply Forall_impl; [|exact F]; simpl; intros; lia).
  destruct m as [|x [|y [|z m]]]; simpl; auto.
  pose proof (H O [x; y] x eq_refl (or_introl eq_refl)) as E. split; constructor; auto; [|lia].
  intro Hi. apply in_map_iff in Hi. destruct Hi as [d [E2 Hd]]. rewrite Forall_forall in F. specialize (F d Hd). lia.
Qed.

Lemma neighbours_best : forall n k ms d e, neighbours n k ms -> best ms d -> best ms e ->
  dm_query d = dm_query e -> d = e.
Proof.
  intros n k ms d e N [d2 Hd] [e2 He] E.
  apply In_nth_error in Hd. destruct Hd as [i Hi]. apply In_nth_error in He. destruct He as [j Hj].
  destruct (N i _ d Hi (or_introl eq_refl)) as [Q1 _]. destruct (N j _ e Hj (or_introl eq_refl)) as [Q2 _].
  assert (i = j) by congruence. subst. congruence.
Qed.

Lemma symmetry_injective : forall n k f b, neighbours n k f -> neighbours k n b ->
  NoDup (map dm_query (SymmetryTest f b)) /\ NoDup (map dm_train (SymmetryTest f b)) /\
  Forall (fun d => (dm_query d < n)%nat /\ (dm_train d < k)%nat) (SymmetryTest f b).
Proof.
  intros n k f b Nf Nb.
  assert (Q : NoDup (map dm_query (SymmetryTest f b))).
  { eapply sub_nodup; [apply sub_map, symmetry_firsts|]. apply (firsts_queries f 0).
    intros i m d H1 H2. simpl. apply (Nf i m d H1 H2). }
  split; auto. split.
  - assert (K : forall l, (forall d, In d l -> In d (SymmetryTest f b)) -> NoDup (map dm_query l) -> NoDup (map dm_train l)).
    { induction l as [|d l IH]; simpl; intros H H1; constructor; inversion H1; subst.
      - intro Hi. apply in_map_iff in Hi. destruct Hi as [d' [E Hd]]. apply H3.
        assert (I1 : In d (SymmetryTest f b)) by (apply H; auto).
        assert (I2 : In d' (SymmetryTest f b)) by (apply H; auto).
        apply symmetry_in in I1. apply symmetry_in in I2.
        destruct I1 as [_ [e [B1 [T1 Q1]]]]. destruct I2 as [_ [e' [B2 [T2 Q2]]]].
        assert (e = e') by (eapply neighbours_best; eauto; congruence). subst.
        assert (E2 : dm_query d = dm_query d') by congruence. rewrite E2. now apply in_map.
      - apply IH; auto. }
    apply K; auto.
  - apply Forall_forall. intros d Hd. apply symmetry_in in Hd. destruct Hd as [[e He] _].
    apply In_nth_error in He. destruct He as [i Hi]. destruct (Nf i _ d Hi (or_introl eq_refl)). lia.
Qed.

(** Filtering by a second list *)
Lemma combine_filter_sub : forall A B (f : A * B -> bool) l m, sub (map fst (filter f (combine l m))) l.
Proof.
  induction l as [|a l IH]; simpl; intros m; [constructor|].
  destruct m as [|b m]; simpl.
  - apply sub_empty.
  - destruct (f (a, b)); simpl; subc; auto.
Qed.
Lemma combine_filter_keeps : forall (A B : Type) (f : B -> bool) (P : B -> Prop) (l : list A) m, (forall b, f b = true <-> P b) ->
  length l = length m -> keeps P l m (map fst (filter (fun q => f (snd q)) (combine l m))).
Proof.
  intros A B f P l. induction l as [|a l IH]; intros [|b m] HP HL; simpl in *; try discriminate; [constructor|].
  destruct (f b) eqn:E; simpl; constructor; auto.
  - now apply HP.
  - intro Hb. apply HP in Hb. congruence.
Qed.

Lemma spans_points : forall prev curr ms ds, spans prev curr ms ds ->
  exists ps, mapM (match_points prev curr) ms = OK ps /\ map pixel_dist ps = ds /\ length ps = length ms.
Proof.
  induction 1 as [|m p q ms ds Hp Hq H [ps [H1 [H2 H3]]]].
  - exists []. auto.
  - exists ((p, q) :: ps). simpl. unfold match_points at 1. unfold vnth. rewrite Hp, Hq. simpl. rewrite H1. simpl.
    split; [auto|]. split; [|auto]. f_equal; auto. unfold pixel_dist, distance. simpl. f_equal. ring.
Qed.
Lemma points_spans : forall prev curr ms ps, mapM (match_points prev curr) ms = OK ps ->
  spans prev curr ms (map pixel_dist ps).
Proof.
  induction ms as [|m ms IH]; simpl; intros ps H.
  - injection H as <-. constructor.
  - apply bind_OK in H. destruct H as [pq [H1 H]]. apply bind_OK in H. destruct H as [ps' [H2 H]]. injection H as <-.
    unfold match_points, vnth in H1. destruct (nth_error prev (dm_query m)) as [p|] eqn:Ep; [|discriminate].
    simpl in H1. destruct (nth_error curr (dm_train m)) as [q|] eqn:Eq; [|discriminate]. simpl in H1. injection H1 as <-.
    simpl. replace (pixel_dist (p, q)) with (distance p q); [constructor; auto|].
    unfold pixel_dist, distance. simpl. f_equal. ring.
Qed.
Lemma fold_total : forall l a, fold_left Rplus l a = a + total l.
Proof. induction l; simpl; intros; [ring|]. rewrite IHl. ring. Qed.

Lemma distance_spec : forall prev curr ms ds, spans prev curr ms ds -> exists out,
  DistanceTest prev curr ms = OK out /\
  keeps (fun d => d < 3 * (total ds / INR (length ms))) ms ds out.
Proof.
  intros prev curr ms ds H. destruct (spans_points _ _ _ _ H) as [ps [H1 [H2 H3]]].
  eexists. unfold DistanceTest. rewrite H1. cbn [bind]. split; [reflexivity|].
  rewrite H2, fold_total. apply combine_filter_keeps with (f := fun d => Rltb d ((0 + total ds) / INR (length ms) * 3)).
  - intros b. rewrite Rltb_spec, Rplus_0_l. lra.
  - rewrite <- H2, map_length. auto.
Qed.
Lemma keeps_none : forall (A B : Type) (P : B -> Prop) (l : list A) m r, keeps P l m r -> Forall (fun b => ~ P b) m -> r = [].
Proof. induction 1; intros F; inversion F; subst; auto. contradiction. Qed.
Lemma distance_zero : forall prev curr ms ds, spans prev curr ms ds -> Forall (fun d => d = 0) ds ->
  DistanceTest prev curr ms = OK [].
Proof.
  intros prev curr ms ds H F. destruct (distance_spec _ _ _ _ H) as [out [H1 H2]]. rewrite H1. f_equal.
  eapply keeps_none; eauto. assert (T : total ds = 0).
  { clear - F. induction F; simpl; [reflexivity|]. subst. rewrite IHF. ring. }
  rewrite T. unfold Rdiv. rewrite Rmult_0_l, Rmult_0_r.
  eapply Forall_impl; [|exact F]. simpl. intros a ->. lra.
Qed.
Lemma distance_sub : forall prev curr ms out, DistanceTest prev curr ms = OK out -> sub out ms.
Proof.
  intros prev curr ms out H. unfold DistanceTest in H. apply bind_OK in H. destruct H as [ps [_ H]].
  injection H as <-. apply combine_filter_sub.
Qed.
Lemma ransac_sub : forall mask prev curr ms out, RANSAC mask prev curr ms = OK out ->
  sub out ms /\ ((length ms < 10)%nat -> out = []).
Proof.
  intros mask prev curr ms out H. unfold RANSAC in H. destruct (Nat.ltb (length ms) 10) eqn:E.
  - injection H as <-. split; auto. apply sub_empty.
  - apply Nat.ltb_ge in E. apply bind_OK in H. destruct H as [ps [_ H]]. apply bind_OK in H. destruct H as [u [_ H]].
    injection H as <-. split; [apply combine_filter_sub|]. lia.
Qed.

(** *** All filters together *)
Lemma ratio_neighbours : forall r n k ms, neighbours n k ms -> neighbours n k (RatioTest r ms).
Proof.
  intros r n k ms H i m d H1 H2. unfold RatioTest in H1. rewrite nth_error_map in H1.
  destruct (nth_error ms i) as [m0|] eqn:E; [|discriminate]. simpl in H1. injection H1 as <-.
  apply (H i m0 d E). destruct m0 as [|a [|b [|c m0]]]; simpl in *; try tauto.
  destruct (quot_above _ _ _); simpl in *; tauto.
Qed.
Lemma final_injective : forall t im curr ms,
  neighbours (length (it_prev t)) (length curr) (im_forward im) ->
  neighbours (length curr) (length (it_prev t)) (im_backward im) ->
  final_matches t im curr = OK ms ->
  NoDup (map dm_query ms) /\ NoDup (map dm_train ms) /\
  Forall (fun d => (dm_query d < length (it_prev t))%nat /\ (dm_train d < length curr)%nat) ms.
Proof.
  intros t im curr ms Nf Nb H. unfold final_matches in H. apply bind_OK in H. destruct H as [rs [H1 H2]].
  apply ransac_sub in H1. destruct H1 as [H1 _]. apply distance_sub in H2.
  pose proof (sub_trans _ _ _ _ H2 H1) as S1.
  destruct (symmetry_injective _ _ _ _ (ratio_neighbours (it_ratio t) _ _ _ Nf) (ratio_neighbours (it_ratio t) _ _ _ Nb))
    as [A [B C]].
  repeat split.
  - eapply sub_nodup; [apply sub_map, S1|auto].
  - eapply sub_nodup; [apply sub_map, S1|auto].
  - rewrite Forall_forall in *. intros d Hd. apply C. eapply sub_in; eauto.
Qed.
Lemma points_exist : forall prev curr ms,
  Forall (fun d => (dm_query d < length prev)%nat /\ (dm_train d < length curr)%nat) ms ->
  exists ps, mapM (match_points prev curr) ms = OK ps.
Proof.
  induction ms as [|m ms IH]; intros F; [now exists []|]. inversion F as [|? ? [H1 H2] F']; subst.
  destruct (IH F') as [ps E]. simpl. unfold match_points at 1, vnth.
  destruct (nth_error prev (dm_query m)) as [p|] eqn:Ep; [|apply nth_error_None in Ep; lia].
  destruct (nth_error curr (dm_train m)) as [q|] eqn:Eq; [|apply nth_error_None in Eq; lia].
  simpl. rewrite E. simpl. eauto.
Qed.
Lemma sub_forall : forall A (P : A -> Prop) l m, sub l m -> Forall P m -> Forall P l.
Proof. intros A P l m H F. rewrite Forall_forall in *. intros x Hx. apply F. eapply sub_in; eauto. Qed.
Lemma final_ok : forall t im curr,
  neighbours (length (it_prev t)) (length curr) (im_forward im) ->
  neighbours (length curr) (length (it_prev t)) (im_backward im) ->
  (length (im_forward im) <= length (im_mask im))%nat ->
  exists ms, final_matches t im curr = OK ms.
Proof.
  intros t im curr Nf Nb Hm. unfold final_matches.
  set (sm := SymmetryTest _ _).
  assert (F : Forall (fun d => (dm_query d < length (it_prev t))%nat /\ (dm_train d < length curr)%nat) sm).
  { apply symmetry_injective; apply ratio_neighbours; auto. }
  assert (L : (length sm <= length (im_mask im))%nat).
  { eapply Nat.le_trans; [|exact Hm]. unfold sm. generalize (im_forward im) as l.
    generalize (RatioTest (it_ratio t) (im_backward im)) as b. clear. intros b l.
    assert (K : forall f, (length (SymmetryTest f b) <= length f)%nat).
    { induction f as [|m f IH]; simpl; [lia|]. destruct m as [|x [|y [|z m]]]; try lia.
      destruct (existsb (mutual x) b); simpl; lia. }
    eapply Nat.le_trans; [apply K|]. unfold RatioTest. rewrite map_length. lia. }
  unfold RANSAC. destruct (Nat.ltb (length sm) 10).
  - simpl. unfold DistanceTest. simpl. eauto.
  - destruct (points_exist _ _ _ F) as [ps E]. rewrite E. cbn [bind]. apply Nat.leb_le in L. rewrite L. cbn [guard bind].
    set (rs := map fst _). assert (Fr : Forall (fun d => (dm_query d < length (it_prev t))%nat /\ (dm_train d < length curr)%nat) rs).
    { eapply sub_forall; [|exact F]. apply combine_filter_sub. }
    unfold DistanceTest. destruct (points_exist _ _ _ Fr) as [ps2 E2]. rewrite E2. cbn [bind]. eauto.
Qed.
