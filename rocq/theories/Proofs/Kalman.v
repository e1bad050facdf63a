(** The measurement update. *)
From Coq Require Import Reals List Arith Bool Lia Lra Setoid Morphisms.
From Verif Require Import Base.Res Base.Mat Base.RDec Base.RSum Base.LinAlg Base.Inverse Base.RMat
  Model.QR Model.Updater Spec.KF Proofs.QRProofs.
Open Scope R_scope.

(** *** Algebra of the gain *)

Lemma mm_ext_l : forall r n c A A' B, eqm r n A A' -> eqm r c (mm n A B) (mm n A' B).
Proof. intros r n c A A' B H i j Hi Hj. unfold mm. apply rsum_ext. intros k Hk. rewrite H; auto. Qed.
Lemma mm_ext_r : forall r n c A B B', eqm n c B B' -> eqm r c (mm n A B) (mm n A B').
Proof. intros r n c A B B' H i j Hi Hj. unfold mm. apply rsum_ext. intros k Hk. rewrite H; auto. Qed.
Lemma eqm_tr : forall r c A B, eqm r c A B -> eqm c r (tr A) (tr B).
Proof. intros r c A B H i j Hi Hj. unfold tr. apply H; auto. Qed.
Lemma symm_tr : forall n P, symm n P -> eqm n n (tr P) P.
Proof. intros n P H i j Hi Hj. unfold tr. apply H; auto. Qed.
Lemma eqm_at : forall r c A B i j, eqm r c A B -> (i < r)%nat -> (j < c)%nat -> A i j = B i j.
Proof. intros r c A B i j H. apply H. Qed.

Lemma joseph_expand : forall n m P H Rn K,
  eqm n n (joseph n m P H Rn K)
    (madd (msub (msub P (mm n (mm m K H) P)) (mm n P (tr (mm m K H))))
          (mm m (mm m K (innov n P H Rn)) (tr K))).
Proof.
  intros n m P H Rn K. unfold joseph, innov. set (G := mm m K H).
  assert (E1 : eqm n n (mm n (mm n (msub idm G) P) (tr (msub idm G)))
    (madd (msub (msub P (mm n G P)) (mm n P (tr G))) (mm n (mm n G P) (tr G)))).
  { assert (A1 : eqm n n (mm n (msub idm G) P) (msub P (mm n G P))).
    { etransitivity; [apply mm_msub_l|]. intros i j Hi Hj. unfold msub.
      rewrite (mm_id_l n n P i j) by auto. reflexivity. }
    assert (A2 : eqm n n (tr (msub idm G)) (msub idm (tr G))).
    { intros i j Hi Hj. unfold tr, msub, idm. rewrite Nat.eqb_sym. reflexivity. }
    etransitivity; [apply mm_ext_l; exact A1|].
    etransitivity; [apply mm_ext_r; exact A2|].
    etransitivity; [apply mm_msub_r|].
    intros i j Hi Hj. unfold msub at 1. rewrite (mm_id_r n n _ i j) by auto.
    rewrite (mm_msub_l n n n P (mm n G P) (tr G) i j) by auto.
    unfold msub, madd. ring. }
  assert (E2 : eqm n n (mm n (mm n G P) (tr G)) (mm m (mm m K (mm n (mm n H P) (tr H))) (tr K))).
  { unfold G.
    transitivity (mm n (mm m K (mm n H P)) (mm m (tr H) (tr K))).
    { etransitivity; [apply mm_ext_l; apply mm_assoc|]. apply mm_ext_r. apply tr_mm. }
    transitivity (mm m K (mm n (mm n H P) (mm m (tr H) (tr K)))).
    { apply mm_assoc. }
    symmetry. etransitivity; [apply mm_assoc|].
    apply mm_ext_r. apply mm_assoc. }
  intros i j Hi Hj.
  assert (E3 := mm_madd_r n m m K (mm n (mm n H P) (tr H)) Rn).
  assert (E4 := mm_ext_l n m n _ _ (tr K) E3 i j Hi Hj).
  rewrite (mm_madd_l n m n _ _ (tr K) i j) in E4 by auto. cbv beta delta [madd] in E4.
  specialize (E1 i j Hi Hj). specialize (E2 i j Hi Hj).
  cbv beta delta [madd msub] in *. rewrite E1, E4, E2. ring.
Qed.

Lemma innov_symm : forall n m P H Rn, symm n P -> symm m Rn -> symm m (innov n P H Rn).
Proof.
  intros n m P H Rn HP HR i j Hi Hj. unfold innov, madd.
  rewrite (symm_congr m n H P HP i j), (HR i j) by auto. reflexivity.
Qed.

Lemma innov_spd : forall n m P H Rn, psd n P -> spd m Rn -> spd m (innov n P H Rn).
Proof. intros. unfold innov. apply spd_madd_l; auto. apply psd_congr. auto. Qed.

(** A gain turns the Joseph form into [P - K H P]. *)
Lemma joseph_gain : forall n m P H Rn K, symm n P -> is_gain n m P H Rn K ->
  eqm n n (joseph n m P H Rn K) (msub P (mm n (mm m K H) P)).
Proof.
  intros n m P H Rn K HP HK. etransitivity; [apply joseph_expand|].
  intros i j Hi Hj. unfold madd, msub.
  assert (E1 : mm n P (tr (mm m K H)) i j = mm m (mm m K (innov n P H Rn)) (tr K) i j).
  { rewrite (mm_ext_l n m n _ _ (tr K) HK i j) by auto.
    rewrite (mm_assoc n n m n P (tr H) (tr K) i j) by auto.
    apply (mm_ext_r n n n P _ _); auto. apply tr_mm. }
  rewrite E1. ring.
Qed.

(** Completing the square: any other gain is worse by [D S D^T]. *)
Lemma joseph_square : forall n m P H Rn K K', symm n P -> symm m Rn -> is_gain n m P H Rn K ->
  eqm n n (msub (joseph n m P H Rn K') (joseph n m P H Rn K))
    (mm m (mm m (msub K' K) (innov n P H Rn)) (tr (msub K' K))).
Proof.
  intros n m P H Rn K K' HP HR HK.
  set (S := innov n P H Rn). assert (HS : symm m S) by (apply innov_symm; auto).
  assert (KS : eqm n m (mm m K S) (mm n P (tr H))) by exact HK.
  assert (SK : eqm m n (mm m S (tr K)) (mm n H P)).
  { intros i j Hi Hj. transitivity (mm m K S j i).
    - unfold mm, tr. apply rsum_ext. intros k Hk. rewrite (HS i k) by auto. ring.
    - rewrite (KS j i) by auto. unfold mm, tr. apply rsum_ext. intros k Hk. rewrite (HP j k) by auto. ring. }
  assert (L : eqm n n (mm m (mm m (msub K' K) S) (tr (msub K' K)))
    (madd (msub (msub (mm m (mm m K' S) (tr K')) (mm m (mm m K' S) (tr K))) (mm m (mm m K S) (tr K')))
          (mm m (mm m K S) (tr K)))).
  { etransitivity; [apply mm_ext_l; apply mm_msub_l|].
    etransitivity; [apply mm_ext_r; apply tr_msub|].
    etransitivity; [apply mm_msub_r|].
    intros i j Hi Hj. unfold msub at 1.
    rewrite !(mm_msub_l n m n _ _ _ i j) by auto. unfold msub, madd. ring. }
  intros i j Hi Hj. unfold msub at 1.
  rewrite (joseph_expand n m P H Rn K' i j) by auto.
  rewrite (joseph_gain n m P H Rn K HP HK i j) by auto.
  rewrite (L i j) by auto. unfold madd, msub. fold S.
  assert (T1 : mm m (mm m K' S) (tr K) i j = mm n (mm m K' H) P i j).
  { rewrite (mm_assoc n m m n K' S (tr K) i j) by auto.
    rewrite (mm_ext_r n m n K' _ _ SK i j) by auto.
    symmetry. apply (mm_assoc n m n n K' H P); auto. }
  assert (T2 : mm m (mm m K S) (tr K') i j = mm n P (tr (mm m K' H)) i j).
  { rewrite (mm_ext_l n m n _ _ (tr K') KS i j) by auto.
    rewrite (mm_assoc n n m n P (tr H) (tr K') i j) by auto.
    apply (mm_ext_r n n n P); auto. symmetry. apply tr_mm. }
  assert (T3 : mm m (mm m K S) (tr K) i j = mm n (mm m K H) P i j).
  { rewrite (mm_assoc n m m n K S (tr K) i j) by auto.
    rewrite (mm_ext_r n m n K _ _ SK i j) by auto.
    symmetry. apply (mm_assoc n m n n K H P); auto. }
  rewrite T1, T2, T3. ring.
Qed.

Lemma gain_optimal : forall n m P H Rn K K', symm n P -> psd m (innov n P H Rn) -> symm m Rn ->
  is_gain n m P H Rn K -> mle n (joseph n m P H Rn K) (joseph n m P H Rn K').
Proof.
  intros n m P H Rn K K' HP HS HR HK. unfold mle.
  eapply psd_ext; [symmetry; apply joseph_square; auto|]. apply psd_congr. exact HS.
Qed.

(** An update never increases the covariance. *)
Lemma gain_decreases : forall n m P H Rn K, symm n P -> psd m (innov n P H Rn) -> symm m Rn ->
  is_gain n m P H Rn K -> mle n (joseph n m P H Rn K) P.
Proof.
  intros n m P H Rn K HP HS HR HK.
  pose proof (gain_optimal n m P H Rn K zm HP HS HR HK) as X. unfold mle in *.
  eapply psd_ext; [|exact X]. intros i j Hi Hj.
  set (J := joseph n m P H Rn K). unfold msub at 1 2. f_equal.
  rewrite (joseph_expand n m P H Rn zm i j) by auto. unfold madd, msub.
  assert (Z1 : eqm n n (mm m zm H) zm) by apply mm_zm_l.
  rewrite (mm_ext_l n n n _ _ P Z1 i j), (mm_zm_l n n n P i j) by auto.
  rewrite (mm_ext_r n n n P _ _ (eqm_tr _ _ _ _ Z1) i j) by auto.
  change (tr zm) with zm. rewrite (mm_zm_r n n n P i j), (mm_zm_r n m n _ i j) by auto. unfold zm. ring.
Qed.

Lemma joseph_psd : forall n m P H Rn K, psd n P -> psd m Rn -> psd n (joseph n m P H Rn K).
Proof. intros. unfold joseph. apply psd_madd; apply psd_congr; auto. Qed.

Lemma joseph_ext : forall n m P P' H Rn Rn' K K', eqm n n P P' -> eqm m m Rn Rn' -> eqm n m K K' ->
  eqm n n (joseph n m P H Rn K) (joseph n m P' H Rn' K').
Proof.
  intros n m P P' H Rn Rn' K K' EP ER EK. unfold joseph.
  assert (A : eqm n n (msub idm (mm m K H)) (msub idm (mm m K' H))).
  { intros i j Hi Hj. unfold msub. f_equal. apply (mm_ext_l n m n); auto. }
  intros i j Hi Hj. unfold madd. f_equal.
  - rewrite (mm_ext_l n n n _ _ _ (mm_ext_l n n n _ _ P A) i j) by auto.
    rewrite (mm_ext_l n n n _ _ _ (mm_ext_r n n n _ _ _ EP) i j) by auto.
    apply (mm_ext_r n n n _ _ _ (eqm_tr _ _ _ _ A)); auto.
  - rewrite (mm_ext_l n m n _ _ _ (mm_ext_l n m m _ _ Rn EK) i j) by auto.
    rewrite (mm_ext_l n m n _ _ _ (mm_ext_r n m m _ _ _ ER) i j) by auto.
    apply (mm_ext_r n m n _ _ _ (eqm_tr _ _ _ _ EK)); auto.
Qed.

(** *** The code *)

Ltac kstep := first
  [ rewrite mulc_ok by (cbn [nr nc mtrans midm mmap]; lia)
  | rewrite addc_ok by (cbn [nr nc mtrans midm mmap]; lia)
  | rewrite subc_ok by (cbn [nr nc mtrans midm mmap]; lia) ]; cbn [bind nr nc ent mtrans midm mmap].

Lemma kalman_std_ok : forall n m c jac noise,
  nr c = n -> nc c = n -> nr jac = m -> nc jac = n -> nr noise = m -> nc noise = m ->
  psd n (ent c) -> spd m (ent noise) ->
  exists g c', kalman_std c jac noise = OK (g, c') /\
    nr g = n /\ nc g = m /\ nr c' = n /\ nc c' = n /\
    is_gain n m (ent c) (ent jac) (ent noise) (ent g) /\
    eqm n n (ent c') (joseph n m (ent c) (ent jac) (ent noise) (ent g)).
Proof.
  intros n m c jac noise C1 C2 J1 J2 N1 N2 HP HR. unfold kalman_std.
  repeat kstep.
  pose proof (innov_spd n m _ (ent jac) _ HP HR) as HS.
  rewrite invc_ok; cbn [nr nc ent]; [|lia|].
  2:{ rewrite J1. apply spd_pivots. rewrite C2, J2. exact HS. }
  cbn [bind nr nc ent]. repeat kstep.
  eexists _, _. split; [reflexivity|]. cbn [nr nc ent].
  rewrite ?C1, ?C2, ?J1, ?J2, ?N1, ?N2.
  split; [lia|]. split; [lia|]. split; [lia|]. split; [lia|].
  split.
  - destruct (inv_spd _ _ HS) as [_ I2]. unfold is_gain.
    etransitivity; [apply mm_assoc|].
    etransitivity; [apply mm_ext_r; exact I2|]. apply mm_id_r.
  - intros i j Hi Hj. reflexivity.
Qed.

(** Square-root form. *)
Lemma gram_mm : forall r k n S A, eqm r r (gram k (mm n S (tr A))) (mm n (mm n A (gram k S)) (tr A)).
Proof.
  intros r k n S A. unfold gram.
  transitivity (mm k (mm n A (tr S)) (mm n S (tr A))).
  { apply mm_ext_l. etransitivity; [apply tr_mm|]. apply mm_ext_l. apply tr_tr. }
  transitivity (mm n (mm k (mm n A (tr S)) S) (tr A)).
  { symmetry. apply mm_assoc. }
  apply mm_ext_l. apply mm_assoc.
Qed.

Lemma is_gain_ext : forall n m P H Rn Rn' K, eqm m m Rn Rn' -> is_gain n m P H Rn K -> is_gain n m P H Rn' K.
Proof.
  intros n m P H Rn Rn' K E HK. unfold is_gain in *. rewrite <- HK. apply mm_ext_r.
  intros i j Hi Hj. unfold innov, madd. rewrite E by auto. reflexivity.
Qed.

Lemma kalman_root_ok : forall n m c jac noise,
  nr c = n -> nc c = n -> nr jac = m -> nc jac = n -> nr noise = m -> nc noise = m ->
  (forall i j, (i < m)%nat -> (j < m)%nat -> 0 <= ent noise i j) ->
  spd m (gram m (fun i j => sqrt (ent noise i j))) ->
  let Rn := gram m (fun i j => sqrt (ent noise i j)) in
  let P := gram n (ent c) in
  exists g c', kalman_root c jac noise = OK (g, c') /\
    nr g = n /\ nc g = m /\ nr c' = n /\ nc c' = n /\
    (forall i j, (j < i < n)%nat -> ent c' i j = 0) /\
    is_gain n m P (ent jac) Rn (ent g) /\
    eqm n n (gram n (ent c')) (joseph n m P (ent jac) Rn (ent g)).
Proof.
  intros n m c jac noise C1 C2 J1 J2 N1 N2 HN HR Rn P. unfold kalman_root.
  rewrite msqrt_ok by (intros; apply HN; lia). cbn [bind].
  repeat kstep.
  match goal with |- context [QR_r ?a ?b] => destruct (QR_r_spec a b) as [w [-> [W1 [W2 [_ W3]]]]] end;
    [cbn [nr nc mmap]; lia|cbn [nr nc mmap]; lia|].
  cbn [nr nc ent mmap bind] in *.
  rewrite ?C1, ?C2, ?J1, ?J2, ?N1, ?N2 in *.
  assert (HS : eqm m m (gram m (ent w)) (innov n P (ent jac) Rn)).
  { etransitivity; [exact W3|]. intros i j Hi Hj. unfold innov, madd. f_equal.
    apply (gram_mm m n n (ent c) (ent jac)); auto. }
  assert (HSp : spd m (innov n P (ent jac) Rn)) by (apply innov_spd; [apply psd_gram|exact HR]).
  assert (HSg : spd m (gram m (ent w))) by (eapply spd_ext; [symmetry; exact HS|exact HSp]).
  repeat kstep.
  rewrite invc_ok; cbn [nr nc ent]; [|lia|].
  2:{ rewrite W1, W2. apply spd_pivots. exact HSg. }
  cbn [bind nr nc ent]. repeat kstep.
  match goal with |- context [QR_r ?a ?b] => destruct (QR_r_spec a b) as [c' [-> [X1 [X2 [X3 X4]]]]] end;
    [cbn [nr nc mmap]; lia|cbn [nr nc mmap]; lia|].
  cbn [nr nc ent mmap bind] in *.
  eexists _, _. split; [reflexivity|]. cbn [nr nc ent].
  rewrite ?C1, ?C2, ?J1, ?J2, ?N1, ?N2, ?W1, ?W2 in *.
  split; [lia|]. split; [lia|]. split; [lia|]. split; [lia|].
  split; [intros i j Hij; apply X3; lia|].
  split.
  - destruct (inv_spd _ _ HSg) as [_ I2]. unfold is_gain.
    etransitivity; [apply mm_ext_r; symmetry; exact HS|].
    etransitivity; [apply mm_assoc|].
    etransitivity; [apply mm_ext_r; exact I2|].
    etransitivity; [apply mm_id_r|]. reflexivity.
  - etransitivity; [exact X4|]. intros i j Hi Hj. unfold joseph, madd. f_equal.
    + apply (gram_mm n n n (ent c)); auto.
    + apply (gram_mm n m m (fun i j => sqrt (ent noise i j))); auto.
Qed.

(** The element-wise root of a diagonal matrix is its matrix root. *)
Lemma gram_sqrt_diag : forall m N, (forall i j, (i < m)%nat -> (j < m)%nat -> i <> j -> N i j = 0) ->
  (forall i, (i < m)%nat -> 0 <= N i i) -> eqm m m (gram m (fun i j => sqrt (N i j))) N.
Proof.
  intros m N Hd Hn i j Hi Hj. unfold gram, mm, tr.
  rewrite (rsum_single m i); auto.
  - destruct (Nat.eq_dec i j) as [->|Hij]; [apply sqrt_sqrt; auto|].
    rewrite (Hd i j), sqrt_0 by auto. ring.
  - intros k Hk Hki. rewrite (Hd k i), sqrt_0 by auto. ring.
Qed.
