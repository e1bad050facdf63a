(** C23: Rotation vector and quaternion conversions are inverse. *)
From Coq Require Import Reals Lra.
From Verif Require Import Base.RDec Base.Geom Model.TypeHelper Spec.Rotation Proofs.Effects Proofs.Rotations.
Open Scope R_scope.

Theorem C23_unit : forall v, qnorm2 (RotVecToQuat v) = 1.
Proof. exact RotVec_unit. Qed.
Print Assumptions C23_unit.

Theorem C23_vector_roundtrip : forall v, 1 / 1000000000 < vnorm v <= PI -> QuatToRotVec (RotVecToQuat v) = v.
Proof. exact rotvec_roundtrip. Qed.
Print Assumptions C23_vector_roundtrip.

Theorem C23_small_is_identity : forall v, vnorm v <= 1 / 1000000000 ->
  RotVecToQuat v = qid /\ QuatToRotVec (RotVecToQuat v) = v0.
Proof. exact rotvec_small_roundtrip. Qed.
Print Assumptions C23_small_is_identity.

Theorem C23_axis_fixed : forall v, qrot (RotVecToQuat v) v = v.
Proof. exact rotvec_fixes. Qed.
Print Assumptions C23_axis_fixed.

(** The rotation is the one about [v] by the angle [|v|]. *)
Theorem C23_turns : forall v u, 1 / 1000000000 < vnorm v ->
  qrot (RotVecToQuat v) u = turn (vnorm v) (vdiv v (vnorm v)) u.
Proof. exact rotvec_turns. Qed.
Print Assumptions C23_turns.

(** The other direction: up to the sign that makes the scalar part
    non-negative, and with a rotation vector no longer than pi. *)
Theorem C23_quaternion_roundtrip : forall q, qnorm2 q = 1 -> 1 / 1000000000 < vnorm (QuatToRotVec q) ->
  RotVecToQuat (QuatToRotVec q) = (if Rltb (qw q) 0 then opposite q else q) /\ vnorm (QuatToRotVec q) <= PI.
Proof. exact quat_roundtrip. Qed.
Print Assumptions C23_quaternion_roundtrip.

Theorem C23_same_rotation : forall q u, qnorm2 q = 1 -> 1 / 1000000000 < vnorm (QuatToRotVec q) ->
  qrot (RotVecToQuat (QuatToRotVec q)) u = qrot q u.
Proof. exact quat_rotvec_same_rotation. Qed.
Print Assumptions C23_same_rotation.

Example C23_some_vector : 1 / 1000000000 < vnorm (mkV3 1 0 0) <= PI.
Proof.
  replace (vnorm (mkV3 1 0 0)) with 1; [pose proof PI_4; pose proof PI2_3_2; lra|].
  unfold vnorm, vnorm2, vdot. cbn. rewrite <- sqrt_1 at 1. f_equal. ring.
Qed.
Example C23_some_quaternion : let q := RotVecToQuat (mkV3 1 0 0) in
  qnorm2 q = 1 /\ 1 / 1000000000 < vnorm (QuatToRotVec q).
Proof. cbv zeta. split; [apply C23_unit|]. rewrite C23_vector_roundtrip by exact C23_some_vector. apply C23_some_vector. Qed.
