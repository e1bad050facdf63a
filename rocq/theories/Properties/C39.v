(** C39: Nullspace projection removes the feature error. *)
From Coq Require Import Reals List Arith Lia Lra.
From Verif Require Import Base.Res Base.Mat Base.RSum Base.LinAlg Model.QR Model.MathHelper Proofs.Nullspace.
Open Scope R_scope.

(** For a feature seen in two frames (four rows, three columns, full column
    rank) the projected feature Jacobian is not zero. *)
Theorem C39_projection_refuted : exists Hf, nr Hf = 4%nat /\ nc Hf = 3%nat /\
  (forall x, (exists j, (j < 3)%nat /\ x j <> 0) -> exists i, (i < 4)%nat /\ rsum 3 (fun j => ent Hf i j * x j) <> 0) /\
  forall r, nr r = 4%nat -> exists A b,
    ApplyLeftNullspace Hf Hf r = OK (A, b) /\ nr A = 1%nat /\ nc A = 3%nat /\ ent A 0%nat 1%nat = -1.
Proof. exact (ex_intro _ shift43 (conj eq_refl (conj eq_refl (conj shift43_rank nullspace_refuted)))). Qed.
Print Assumptions C39_projection_refuted.

(** The trailing columns of Q (rows of its transpose) are the ones that
    annihilate the feature Jacobian. *)
Theorem C39_columns_annihilate : forall m n A i j, (n <= m)%nat -> (n <= i < m)%nat -> (j < n)%nat ->
  mm m (hqt m n A) A i j = 0.
Proof. exact columns_annihilate. Qed.
Print Assumptions C39_columns_annihilate.

(** With a single column rows and columns of Q agree, and the code is right. *)
Theorem C39_single_column : forall Hf r, nc Hf = 1%nat -> (1 <= nr Hf)%nat -> nr r = nr Hf ->
  exists A b, ApplyLeftNullspace Hf Hf r = OK (A, b) /\ eqm (nr Hf - 1) 1 (ent A) zm.
Proof. exact single_column. Qed.
Print Assumptions C39_single_column.

(** A feature seen in a single frame has two rows and three columns. *)
Theorem C39_too_short : forall Hf Hx r, (nr Hf < nc Hf)%nat -> ApplyLeftNullspace Hf Hx r = UB.
Proof. exact nullspace_short. Qed.
Print Assumptions C39_too_short.

Example C39_single_case : let Hf := mkmat 3 1 (fun i _ => INR i) in nc Hf = 1%nat /\ (1 <= nr Hf)%nat.
Proof. cbn. lia. Qed.
Example C39_columns_case : (3 <= 4)%nat /\ (3 <= 3 < 4)%nat.
Proof. lia. Qed.
