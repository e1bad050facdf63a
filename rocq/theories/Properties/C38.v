(** C38: Measurement compression preserves information. *)
From Coq Require Import Reals List Arith Lia Lra.
From Verif Require Import Base.Res Base.Mat Base.RSum Base.LinAlg Model.MathHelper Proofs.Compress.
Open Scope R_scope.

(** Well observed measurement: no direction of the state is seen with a
    squared gain below the square of the row threshold 1e-9. *)
Theorem C38_information_kept : forall J r c, (nc J <= nr J)%nat -> nr r = nr J -> nc r = 1%nat ->
  (1 / 1000000000) * (1 / 1000000000) < c ->
  (forall x, c * norm2 (nc J) x <= qf (nc J) (gram (nr J) (ent J)) x) ->
  exists J' r', CompressMeasurements J r = OK (J', r') /\
    nr J' = nc J /\ nc J' = nc J /\ nr r' = nc J /\ nc r' = 1%nat /\
    eqm (nc J) (nc J) (gram (nr J') (ent J')) (gram (nr J) (ent J)) /\
    eqm (nc J) 1 (mm (nr J') (tr (ent J')) (ent r')) (mm (nr J) (tr (ent J)) (ent r)).
Proof. exact compress_preserves. Qed.
Print Assumptions C38_information_kept.

(** In every case compression never adds information. *)
Theorem C38_never_invents : forall J r J' r', nr r = nr J -> nc r = 1%nat ->
  CompressMeasurements J r = OK (J', r') ->
  nc J' = nc J /\ nr r' = nr J' /\ (nr J' <= nr J)%nat /\
  psd (nc J) (msub (gram (nr J) (ent J)) (gram (nr J') (ent J'))).
Proof. exact compress_never_invents. Qed.
Print Assumptions C38_never_invents.

Theorem C38_wide_unchanged : forall J r, (nr J < nc J)%nat -> CompressMeasurements J r = OK (J, r).
Proof. exact compress_fat. Qed.
Print Assumptions C38_wide_unchanged.

(** A measurement of one of two states only: everything it says is lost. *)
Theorem C38_compression_refuted : exists J r J' r', nr J = 2%nat /\ nc J = 2%nat /\ nr r = 2%nat /\ nc r = 1%nat /\
  CompressMeasurements J r = OK (J', r') /\
  gram (nr J) (ent J) 1%nat 1%nat = 1 /\ gram (nr J') (ent J') 1%nat 1%nat = 0 /\
  mm (nr J) (tr (ent J)) (ent r) 1%nat 0%nat = 1 /\ mm (nr J') (tr (ent J')) (ent r') 1%nat 0%nat = 0.
Proof.
  exact (match compress_loses with ex_intro _ J' (ex_intro _ r' H) =>
    ex_intro _ lossy_J (ex_intro _ lossy_r (ex_intro _ J' (ex_intro _ r'
      (conj eq_refl (conj eq_refl (conj eq_refl (conj eq_refl H))))))) end).
Qed.
Print Assumptions C38_compression_refuted.

(** Three readings of one state. *)
Example C38_hypotheses : let J := mkmat 3 1 (fun _ _ => 1) in
  (nc J <= nr J)%nat /\ (1 / 1000000000) * (1 / 1000000000) < 1 /\
  forall x, 1 * norm2 (nc J) x <= qf (nc J) (gram (nr J) (ent J)) x.
Proof. cbn. repeat split; [lia|lra|]. intros x. unfold norm2, qf, dot, mv, gram, mm, tr. cbn. nra. Qed.
