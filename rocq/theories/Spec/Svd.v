(** The contract of the library's singular value decomposition (2 x 2), and
    planar rotation matrices. *)
From Coq Require Import Reals.
From Verif Require Import Model.MathHelper.
Open Scope R_scope.

Definition m2id : m2 := mkM2 1 0 0 1.

(** What [Eigen::JacobiSVD] promises: orthogonal factors and ordered
    non-negative singular values. *)
Definition svd_of (M U V : m2) : Prop :=
  m2mul (m2tr U) U = m2id /\ m2mul U (m2tr U) = m2id /\
  m2mul (m2tr V) V = m2id /\ m2mul V (m2tr V) = m2id /\
  exists s1 s2, 0 <= s2 <= s1 /\ M = m2mul (m2mul U (m2diag s1 s2)) (m2tr V).

(** Rotation about the vertical, as a 2 x 2 matrix. *)
Definition m2rot (yaw : R) : m2 := mkM2 (cos yaw) (- sin yaw) (sin yaw) (cos yaw).
