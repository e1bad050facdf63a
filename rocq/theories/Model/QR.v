(** Householder QR as performed by [Eigen::HouseholderQR] (unblocked
    formulas; the blocked algorithm computes the same reflections), and
    /repo/src/utility/math_helper.cpp 302-312, [QR_r]. *)
From Coq Require Import Reals List Arith Bool.
From Verif Require Import Base.Res Base.Mat Base.RSum Base.LinAlg Base.RDec Base.RMat.
Open Scope R_scope.

(** Squared norm of the part of column [k] below the diagonal. *)
Definition tail2 (m k : nat) (A : fmat) : R :=
  rsum m (fun i => if Nat.ltb k i then A i k * A i k else 0).

(** Eigen [makeHouseholder]: beta, tau and the reflection vector (1 on the
    diagonal, the "essential" part below, 0 above).  Eigen tests the tail
    against the smallest positive double; over R this is a test with 0. *)
Definition hbeta (m k : nat) (A : fmat) : R :=
  let c0 := A k k in
  if Reqb (tail2 m k A) 0 then c0
  else let b := sqrt (c0 * c0 + tail2 m k A) in if Rleb 0 c0 then - b else b.

Definition htau (m k : nat) (A : fmat) : R :=
  if Reqb (tail2 m k A) 0 then 0
  else let b := hbeta m k A in (b - A k k) / b.

Definition hvec (m k : nat) (A : fmat) : nat -> R := fun i =>
  if Nat.ltb i k then 0
  else if Nat.eqb i k then 1
  else if Reqb (tail2 m k A) 0 then 0 else A i k / (A k k - hbeta m k A).

(** [applyHouseholderOnTheLeft]: (I - tau v v^T) B. *)
Definition refl (m : nat) (tau : R) (v : nat -> R) (B : fmat) : fmat := fun i j =>
  B i j - tau * v i * rsum m (fun l => v l * B l j).

(** One step: column [k] becomes beta on the diagonal and (conceptually) 0
    below it -- Eigen stores the reflection vector there, and
    [triangularView<Upper>] reads it as 0 --, the columns to its right are
    reflected, the columns to its left are untouched. *)
Definition hstep (m k : nat) (A : fmat) : fmat := fun i j =>
  if Nat.ltb j k then A i j
  else if Nat.eqb j k then
    (if Nat.ltb i k then A i j else if Nat.eqb i k then hbeta m k A else 0)
  else refl m (htau m k A) (hvec m k A) A i j.

(** The R factor after [k] steps. *)
Fixpoint hqr (m k : nat) (A : fmat) : fmat :=
  match k with
  | O => A
  | S k' => hstep m k' (hqr m k' A)
  end.

(** The transpose of [householderQ()]: the same reflections applied to the
    identity. *)
Fixpoint hqt (m k : nat) (A : fmat) : fmat :=
  match k with
  | O => idm
  | S k' => let B := hqr m k' A in refl m (htau m k' B) (hvec m k' B) (hqt m k' A)
  end.

(** math_helper.cpp 302-312.  [block(0, 0, cols, cols)] needs at least [cols]
    rows. *)
Definition QR_r (left right : mat R) : res (mat R) :=
  let* vert_cat := vcat left right in
  let m := nr vert_cat in
  let n := nc vert_cat in
  let qr := mkmat m n (hqr m (min m n) (ent vert_cat)) in
  let* b := block qr 0 0 (nc left) (nc left) in
  OK (mkmat (nc left) (nc left) (fun i j => if Nat.leb i j then ent b i j else 0)).
