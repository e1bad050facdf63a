(** C24: Skew-symmetric matrix is the cross product. *)
From Coq Require Import Reals Lra.
From Verif Require Import Base.Mat Base.LinAlg Base.Geom Model.MathHelper Spec.Rotation Proofs.Rotations.
Open Scope R_scope.

Theorem C24_cross : forall a b, mat_vec (SkewSymmetric a) b = vcross a b.
Proof. exact skew_cross. Qed.
Print Assumptions C24_cross.

Theorem C24_antisymmetric : forall a, eqm 3 3 (tr (ent (SkewSymmetric a))) (mopp (ent (SkewSymmetric a))).
Proof. exact skew_anti. Qed.
Print Assumptions C24_antisymmetric.

Theorem C24_conjugation : forall q a, qnorm2 q = 1 ->
  eqm 3 3 (mm 3 (mm 3 (ent (qmat q)) (ent (SkewSymmetric a))) (tr (ent (qmat q)))) (ent (SkewSymmetric (qrot q a))).
Proof. exact skew_conj. Qed.
Print Assumptions C24_conjugation.

Theorem C24_orthogonal : forall q, qnorm2 q = 1 ->
  eqm 3 3 (mm 3 (ent (qmat q)) (tr (ent (qmat q)))) idm /\
  eqm 3 3 (mm 3 (tr (ent (qmat q))) (ent (qmat q))) idm.
Proof. exact qmat_orthogonal. Qed.
Print Assumptions C24_orthogonal.

Theorem C24_determinant : forall q, qnorm2 q = 1 -> det3 (ent (qmat q)) = 1.
Proof. exact qmat_det. Qed.
Print Assumptions C24_determinant.

Theorem C24_multiplicative : forall p q, qnorm2 p = 1 -> qnorm2 q = 1 ->
  eqm 3 3 (ent (qmat (qmul p q))) (mm 3 (ent (qmat p)) (ent (qmat q))).
Proof. exact qmat_mul. Qed.
Print Assumptions C24_multiplicative.

(** The matrix acts as the quaternion, and the inverse quaternion has the
    transposed matrix. *)
Theorem C24_action : forall q v, qnorm2 q = 1 -> mat_vec (qmat q) v = qrot q v.
Proof. exact qmat_vec. Qed.
Print Assumptions C24_action.

Theorem C24_inverse : forall q, qnorm2 q = 1 -> eqm 3 3 (ent (qmat (qinv q))) (tr (ent (qmat q))).
Proof. exact qmat_inv. Qed.
Print Assumptions C24_inverse.

Theorem C24_composition : forall p q v, qnorm2 p = 1 -> qnorm2 q = 1 ->
  qrot (qmul p q) v = qrot p (qrot q v).
Proof. exact qrot_mul. Qed.
Print Assumptions C24_composition.

Example C24_unit : qnorm2 (mkQ (3 / 5) 0 (4 / 5) 0) = 1 /\ qnorm2 (mkQ (1 / 2) (1 / 2) (- (1 / 2)) (1 / 2)) = 1.
Proof. unfold qnorm2. cbn. lra. Qed.
