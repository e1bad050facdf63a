(** Fixed-size Eigen expressions (Matrix3d, Matrix<2,3>): products and sums
    whose shapes the C++ compiler checks. *)
From Coq Require Import Reals List Arith.
From Verif Require Import Base.Mat Base.RSum Base.LinAlg Base.RMat Base.Geom Model.MathHelper.
Open Scope R_scope.

(** [Matrix3d a, b; a * b] *)
Definition m3mul (a b : mat R) : mat R := mkmat 3 3 (mm 3 (ent a) (ent b)).
(** [a + b] *)
Definition m3add (a b : mat R) : mat R := mkmat 3 3 (madd (ent a) (ent b)).
(** [-a] *)
Definition m3neg (a : mat R) : mat R := mkmat 3 3 (mopp (ent a)).
(** [a.transpose()] *)
Definition m3tr (a : mat R) : mat R := mkmat 3 3 (tr (ent a)).
(** [Matrix3d::Identity()] *)
Definition m3id : mat R := midm 3 3.
(** [q.inverse().toRotationMatrix()] *)
Definition qmat_inv (q : quat) : mat R := qmat (qinv q).
