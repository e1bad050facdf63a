(** /repo/src/utility/math_helper.cpp, the functions not in
    [Model.MathHelperMat] and [Model.QR]. *)
From Coq Require Import Reals List Arith Bool.
From Verif Require Import Base.Res Base.Mat Base.RSum Base.LinAlg Base.RDec Base.RMat Base.Geom
  Model.TypeHelper Model.QR.
Import ListNotations.
Open Scope R_scope.

(** math_helper.cpp 27-39. *)
Definition SkewSymmetric (v : V3) : mat R :=
  of_list 0 3 3 [[0; - vz v; vy v]; [vz v; 0; - vx v]; [- vy v; vx v; 0]].

(** math_helper.cpp 41-48. *)
Definition MinBoundVector (v : list R) (min_bound : R) : list R :=
  map (fun x => if Rltb x min_bound then min_bound else x) v.

(** math_helper.cpp 109-116.  [householderQ()] is the transpose of the
    accumulated reflections [hqt].  The unsigned-to-signed size
    [H_f.rows() - H_f.cols()] must not be negative. *)
Definition ApplyLeftNullspace (H_f H_x res : mat R) : Res.res (mat R * mat R) :=
  let m := nr H_f in
  let n := nc H_f in
  let Q_decomp := mkmat m m (tr (hqt m (min m n) (ent H_f))) in
  let* k := usub m n in
  let* Q_null := block Q_decomp n 0 k m in
  let* H_x' := mulc Q_null H_x in
  let* res' := mulc Q_null res in
  OK (H_x', res').

(** Eigen [JacobiRotation<double>::makeGivens(p, q)]: (c, s). *)
Definition makeGivens (p q : R) : R * R :=
  if Reqb q 0 then ((if Rltb p 0 then - 1 else 1), 0)
  else if Reqb p 0 then (0, (if Rltb q 0 then 1 else - 1))
  else if Rltb (Rabs q) (Rabs p) then
    let t := q / p in
    let u := sqrt (1 + t * t) in
    let u := if Rltb p 0 then - u else u in
    let c := 1 / u in (c, - t * c)
  else
    let t := p / q in
    let u := sqrt (1 + t * t) in
    let u := if Rltb q 0 then - u else u in
    let s := - (1 / u) in (- t * s, s).

(** [A.block(i - 1, j0, 2, cols - j0).applyOnTheLeft(0, 1, g.adjoint())] for
    rows [i - 1 = r] and [i = r + 1]: only columns from [j0] on are touched. *)
Definition rot_rows (r j0 : nat) (c s : R) (A : fmat) : fmat := fun a b =>
  if Nat.ltb b j0 then A a b
  else if Nat.eqb a r then c * A r b - s * A (S r) b
  else if Nat.eqb a (S r) then s * A r b + c * A (S r) b
  else A a b.

(** One pass of the inner loop body, lines 130-134, for [i = r + 1]: the
    Jacobian and the residual are rotated by the same Givens rotation. *)
Definition givens_step (j r : nat) (Hr : fmat * fmat) : fmat * fmat :=
  let '(H, res) := Hr in
  let '(c, s) := makeGivens (H r j) (H (S r) j) in
  (rot_rows r j c s H, rot_rows r 0 c s res).

(** Inner loop, line 128: i = m-1 down to j+1. *)
Definition givens_col (m j : nat) (Hr : fmat * fmat) : fmat * fmat :=
  fold_left (fun acc r => givens_step j r acc) (rev (seq j (m - 1 - j))) Hr.

(** Outer loop, line 127: j = 0 .. n-1. *)
Definition givens_all (m n : nat) (Hr : fmat * fmat) : fmat * fmat :=
  fold_left (fun acc j => givens_col m j acc) (seq 0 n) Hr.

(** Line 139: does row [i] have an entry of magnitude above 1e-9? *)
Definition live_row (n : nat) (H : fmat) (i : nat) : bool :=
  existsb (fun j => Rltb (1 / 1000000000) (Rabs (H i j))) (seq 0 n).

(** math_helper.cpp 118-144.  The residual must have an entry for every row
    of the Jacobian ([segment<2>(i - 1)], [conservativeResize]). *)
Definition CompressMeasurements (jacobian residual : mat R) : Res.res (mat R * mat R) :=
  let m := nr jacobian in
  let n := nc jacobian in
  if Nat.leb n m then
    let* _ := guard (Nat.eqb (nr residual) m && Nat.eqb (nc residual) 1) in
    let '(H, r) := givens_all m n (ent jacobian, ent residual) in
    let rows := length (filter (live_row n H) (seq 0 m)) in
    OK (mkmat rows n H, mkmat rows 1 r)
  else OK (jacobian, residual).

(** math_helper.cpp 156-168.  Reading [weights[i]] out of range and dividing
    by a zero weight sum are undefined. *)
Fixpoint weighted_sum (vs : list V3) (ws : list R) (acc : V3) (wsum : R) : Res.res (V3 * R) :=
  match vs, ws with
  | [], _ => OK (acc, wsum)
  | v :: vs', w :: ws' => weighted_sum vs' ws' (vadd acc (vscale w v)) (wsum + w)
  | _ :: _, [] => UB
  end.
Definition average_vectors_w (vs : list V3) (ws : list R) : Res.res V3 :=
  let* p := weighted_sum vs ws v0 0 in
  let '(acc, wsum) := p in
  if Reqb wsum 0 then UB else OK (vdiv acc wsum).

(** math_helper.cpp 146-154. *)
Definition average_vectors (vs : list V3) : Res.res V3 :=
  average_vectors_w vs (map (fun _ => 1) vs).

(** math_helper.cpp 170-182. *)
Definition QuaternionJacobian (q : quat) : mat R :=
  let rot_vec := QuatToRotVec q in
  let K := ent (SkewSymmetric rot_vec) in
  let n := Rmax (vnorm rot_vec) (1 / 1000000000) in
  let coeff_one := (1 - cos n) / n ^ 2 in
  let coeff_two := (n - sin n) / n ^ 3 in
  mkmat 3 3 (madd (msub idm (mscal coeff_one K)) (mscal coeff_two (mm 3 K K))).

(** math_helper.cpp 184-187. *)
Definition sign (x : R) : R :=
  (if Rltb 0 x then 1 else 0) - (if Rltb x 0 then 1 else 0).

(** A rigid transform ([Eigen::Affine3d]): linear part and translation. *)
Record affine : Type := mkAff { af_lin : mat R; af_tr : V3 }.
Definition mat_vec (M : mat R) (v : V3) : V3 :=
  mkV3 (ent M 0%nat 0%nat * vx v + ent M 0%nat 1%nat * vy v + ent M 0%nat 2%nat * vz v)
       (ent M 1%nat 0%nat * vx v + ent M 1%nat 1%nat * vy v + ent M 1%nat 2%nat * vz v)
       (ent M 2%nat 0%nat * vx v + ent M 2%nat 1%nat * vy v + ent M 2%nat 2%nat * vz v).
Definition aff_apply (t : affine) (v : V3) : V3 := vadd (mat_vec (af_lin t) v) (af_tr t).

(** math_helper.cpp 199-202.  [std::acos] outside [-1, 1] is NaN. *)
Definition affine_angle (t : affine) : Res.res R :=
  let x := (ent (af_lin t) 0%nat 0%nat + ent (af_lin t) 1%nat 1%nat + ent (af_lin t) 2%nat 2%nat - 1) / 2 in
  if Rleb (-1) x && Rleb x 1 then OK (acos x) else UB.

(** 2 x 2 matrices of [kabsch_2d]. *)
Record m2 : Type := mkM2 { m00 : R; m01 : R; m10 : R; m11 : R }.
Definition m2mul (a b : m2) : m2 :=
  mkM2 (m00 a * m00 b + m01 a * m10 b) (m00 a * m01 b + m01 a * m11 b)
       (m10 a * m00 b + m11 a * m10 b) (m10 a * m01 b + m11 a * m11 b).
Definition m2tr (a : m2) : m2 := mkM2 (m00 a) (m10 a) (m01 a) (m11 a).
Definition m2det (a : m2) : R := m00 a * m11 a - m01 a * m10 a.
Definition m2diag (a b : R) : m2 := mkM2 a 0 0 b.

Definition lsum {A} (f : A -> R) (l : list A) : R := fold_right (fun x acc => f x + acc) 0 l.

(** math_helper.cpp 189-197 and 227: [matrix2d_from_vectors3d(a) *
    matrix2d_from_vectors3d(b).transpose()], summed over pairs of points. *)
Definition cross_cov (a b : list V3) : m2 :=
  let ps := combine a b in
  mkM2 (lsum (fun p => vx (fst p) * vx (snd p)) ps) (lsum (fun p => vx (fst p) * vy (snd p)) ps)
       (lsum (fun p => vy (fst p) * vx (snd p)) ps) (lsum (fun p => vy (fst p) * vy (snd p)) ps).

(** math_helper.cpp 289-300. *)
Definition mean_standard_deviation (vs : list V3) : Res.res R :=
  let* mean_var := average_vectors vs in
  let s := lsum (fun v => let d := vnorm (vsub v mean_var) in d * d) vs in
  OK (sqrt s / INR (length vs)).

(** math_helper.cpp 230-242: the rotation from the factors U, V of
    [Eigen::JacobiSVD], which is a parameter of the model. *)
Definition kabsch_rot (U V : m2) : m2 :=
  let det := m2det (m2mul V (m2tr U)) in
  m2mul (m2mul V (m2diag 1 (sign det))) (m2tr U).
Definition lift_rot (r : m2) : mat R :=
  of_list 0 3 3 [[m00 r; m01 r; 0]; [m10 r; m11 r; 0]; [0; 0; 1]].

(** math_helper.cpp 204-260.  [svd] returns U and V; [None] is the [false]
    return.  The result is the transform, the position deviation, and the
    angular deviation when line 256 assigns it (it stays unassigned, [None],
    when no residual is shorter than its baseline). *)
Definition kabsch_2d (svd : m2 -> m2 * m2) (points_tgt points_src : list V3)
  : Res.res (option (affine * R * option R)) :=
  if negb (Nat.eqb (length points_tgt) (length points_src)) || Nat.ltb (length points_tgt) 4
  then OK None
  else
    let* centroid_src := average_vectors points_src in
    let* centroid_tgt := average_vectors points_tgt in
    let cov := cross_cov (vectors_minus points_src centroid_src) (vectors_minus points_tgt centroid_tgt) in
    let '(U, V) := svd cov in
    let rotation_3d := lift_rot (kabsch_rot U V) in
    let transform := mkAff rotation_3d (vsub centroid_tgt (mat_vec rotation_3d centroid_src)) in
    let err p := vsub (fst p) (aff_apply transform (snd p)) in
    let base p := vnorm (vsub (fst p) centroid_src) in
    let ps := combine points_tgt points_src in
    let used := filter (fun p => Rltb (vnorm (err p)) (base p)) ps in
    let* pos_stddev := mean_standard_deviation (map err ps) in
    let slopes := lsum (fun p => (vnorm (err p) / base p) ^ 2) used in
    let count := INR (length used) in
    OK (Some (transform, pos_stddev, if Reqb count 0 then None else Some (sqrt slopes / count))).

(** math_helper.cpp 263-287.  [cv::convexHull] is the parameter [hull]; the
    conversion to integer pixels truncates toward zero. *)
Definition trunc (x : R) : Z := if Rltb x 0 then (- Int_part (- x))%Z else Int_part x.
Definition pix (v : V3) : Z * Z := (trunc (vx v), trunc (vy v)).
Definition pix_dist (a b : Z * Z) : R :=
  let dx := IZR (fst a - fst b) in let dy := IZR (snd a - snd b) in sqrt (dx * dx + dy * dy).
Definition maximum_distance (hull : list (Z * Z) -> list (Z * Z)) (pts : list V3) : R :=
  let h := hull (map pix pts) in
  fold_left Rmax (flat_map (fun a => map (pix_dist a) h) h) 0.
