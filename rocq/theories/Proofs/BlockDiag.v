(** Block-diagonal noise matrices. *)
From Coq Require Import Reals List Arith Bool Lia Lra.
From Verif Require Import Base.Res Base.Mat Base.RDec Base.RSum Base.LinAlg Base.RMat
  Model.Types Model.Ekf Model.Ops Spec.Contract Spec.Callback.
Open Scope R_scope.

Definition bdiag (m : nat) (A B : fmat) : fmat := fun i j =>
  if Nat.ltb i m then (if Nat.ltb j m then A i j else 0)
  else (if Nat.ltb j m then 0 else B (i - m)%nat (j - m)%nat).

Ltac natcase :=
  repeat match goal with
  | |- context [Nat.ltb ?a ?b] => destruct (Nat.ltb_spec a b); try lia
  end.

Lemma bdiag_qf : forall m n A B x, qf (m + n) (bdiag m A B) x = qf m A x + qf n B (fun i => x (m + i)%nat).
Proof.
  intros m n A B x. rewrite !qf_expand, rsum_split. f_equal.
  - apply rsum_ext. intros i Hi. rewrite rsum_split.
    rewrite (rsum_0 n); [|intros j Hj; unfold bdiag; natcase; ring].
    rewrite Rplus_0_r. apply rsum_ext. intros j Hj. unfold bdiag. natcase. reflexivity.
  - apply rsum_ext. intros i Hi. rewrite rsum_split.
    rewrite (rsum_0 m); [|intros j Hj; unfold bdiag; natcase; ring].
    rewrite Rplus_0_l. apply rsum_ext. intros j Hj. unfold bdiag. natcase.
    replace (m + i - m)%nat with i by lia. replace (m + j - m)%nat with j by lia. reflexivity.
Qed.

Lemma spd_qf_nonneg : forall n A x, spd n A -> 0 <= qf n A x.
Proof. intros n A x H. apply spd_psd in H. apply H. Qed.

Lemma bdiag_spd : forall m n A B, spd m A -> spd n B -> spd (m + n) (bdiag m A B).
Proof.
  intros m n A B HA HB. split.
  - intros i j Hi Hj. unfold bdiag. natcase; auto; [apply HA; auto|apply HB; lia].
  - intros x [i [Hi Hx]]. rewrite bdiag_qf.
    pose proof (spd_qf_nonneg m A x HA). pose proof (spd_qf_nonneg n B (fun i => x (m + i)%nat) HB).
    destruct (Nat.ltb_spec i m) as [H1|H1].
    + assert (0 < qf m A x) by (apply HA; exists i; auto). lra.
    + assert (0 < qf n B (fun i => x (m + i)%nat)); [|lra].
      apply HB. exists (i - m)%nat. split; [lia|]. replace (m + (i - m))%nat with i by lia. exact Hx.
Qed.

Lemma bdiag_gram : forall m n A B, eqm (m + n) (m + n)
  (bdiag m (gram m A) (gram n B)) (gram (m + n) (bdiag m A B)).
Proof.
  intros m n A B i j Hi Hj. unfold gram at 3. unfold mm, tr. rewrite rsum_split.
  unfold bdiag at 1. destruct (Nat.ltb_spec i m) as [Hi'|Hi']; destruct (Nat.ltb_spec j m) as [Hj'|Hj'].
  - rewrite (rsum_0 n); [|intros k Hk; unfold bdiag; natcase; ring]. rewrite Rplus_0_r.
    unfold gram, mm, tr. apply rsum_ext. intros k Hk. unfold bdiag. natcase. reflexivity.
  - rewrite (rsum_0 n); [|intros k Hk; unfold bdiag; natcase; ring].
    rewrite (rsum_0 m); [ring|]. intros k Hk. unfold bdiag. natcase. ring.
  - rewrite (rsum_0 n); [|intros k Hk; unfold bdiag; natcase; ring].
    rewrite (rsum_0 m); [ring|]. intros k Hk. unfold bdiag. natcase. ring.
  - rewrite (rsum_0 m); [|intros k Hk; unfold bdiag; natcase; ring]. rewrite Rplus_0_l.
    unfold gram, mm, tr. apply rsum_ext. intros k Hk. unfold bdiag. natcase.
    replace (m + k - m)%nat with k by lia. reflexivity.
Qed.

Lemma gram_eqm : forall n A B, eqm n n A B -> eqm n n (gram n A) (gram n B).
Proof. intros n A B H i j Hi Hj. unfold gram, mm, tr. apply rsum_ext. intros k Hk. rewrite !H by auto. reflexivity. Qed.

Lemma spd_mscal : forall n c P, 0 < c -> spd n P -> spd n (mscal c P).
Proof.
  intros n c P Hc [H1 H2]. split.
  - intros i j Hi Hj. unfold mscal. rewrite H1 by auto. reflexivity.
  - intros x Hx. assert (E : qf n (mscal c P) x = c * qf n P x).
    { rewrite !qf_expand, <- rsum_scal_l. apply rsum_ext. intros i _. rewrite <- rsum_scal_l.
      apply rsum_ext. intros j _. unfold mscal. ring. }
    rewrite E. apply Rmult_lt_0_compat; auto.
Qed.

(** The six by six noise of two sensors. *)
Lemma noise6_ok : forall root A B N, noise_ok root 3 A -> noise_ok root 3 B ->
  nr N = 6%nat -> nc N = 6%nat -> eqm 6 6 (ent N) (bdiag 3 (ent A) (ent B)) -> noise_ok root 6 N.
Proof.
  intros root A B N [_ [_ HA]] [_ [_ HB]] N1 N2 E. split; [exact N1|]. split; [exact N2|]. destruct root.
  - destruct HA as [A1 A2], HB as [B1 B2]. split.
    + intros i j Hi Hj. rewrite E by auto. unfold bdiag. natcase; auto; try lra. apply B1; lia.
    + apply (spd_ext (3 + 3) (bdiag 3 (gram 3 (fun i j => sqrt (ent A i j))) (gram 3 (fun i j => sqrt (ent B i j))))).
      2:{ apply bdiag_spd; auto. }
      intros i j Hi Hj. rewrite bdiag_gram by auto. apply (gram_eqm 6); auto.
      intros a b Ha Hb. rewrite E by auto. unfold bdiag. natcase; auto using sqrt_0.
  - apply (spd_ext (3 + 3) (bdiag 3 (ent A) (ent B))); [|apply bdiag_spd; auto].
    intros i j Hi Hj. symmetry. apply E; auto.
Qed.

(** Diagonal noise with positive entries serves both forms. *)
Lemma diag_noise_ok : forall root n N d, nr N = n -> nc N = n -> (forall i, (i < n)%nat -> 0 < d i) ->
  eqm n n (ent N) (diagm d) -> noise_ok root n N.
Proof.
  intros root n N d N1 N2 Hd E. split; [exact N1|]. split; [exact N2|].
  assert (S : spd n (ent N)).
  { apply (spd_ext n (diagm d)); [intros i j Hi Hj; symmetry; apply E; auto|apply spd_diag; auto]. }
  destruct root; [|exact S]. split.
  - intros i j Hi Hj. rewrite E by auto. unfold diagm. destruct (Nat.eqb_spec i j); [apply Rlt_le; auto|lra].
  - apply (spd_ext n (diagm d)); [|apply spd_diag; auto].
    intros i j Hi Hj. unfold gram, mm, tr.
    assert (X : forall k, (k < n)%nat -> sqrt (ent N k i) * sqrt (ent N k j) =
      (if Nat.eqb i k then 1 else 0) * (if Nat.eqb k j then d k else 0)).
    { intros k Hk. rewrite !E by auto. unfold diagm.
      destruct (Nat.eqb_spec k i), (Nat.eqb_spec k j), (Nat.eqb_spec i k); try lia; rewrite ?sqrt_0; try ring.
      rewrite Rmult_1_l. apply sqrt_sqrt. subst. apply Rlt_le. auto. }
    rewrite (rsum_ext n _ _ X).
    rewrite (rsum_delta_l n i (fun k => if Nat.eqb k j then d k else 0)) by auto.
    unfold diagm. reflexivity.
Qed.
