(** /repo/src/ekf/update/updater.cpp 26-64. *)
From Coq Require Import Reals List Arith Bool.
From Verif Require Import Base.Res Base.Mat Base.RDec Base.Geom Base.RMat
  Model.TypeHelper Model.Types Model.QR Model.Ekf.
Open Scope R_scope.

(** Lines 38-42, 49, 55-57: square-root form: gain, new covariance. *)
Definition kalman_root (c jac noise : mat R) : res (mat R * mat R) :=
  let* observation_noise := msqrt noise in
  let* cj := mulc c (mtrans jac) in
  let* innovation := QR_r cj observation_noise in
  let* ctc := mulc (mtrans c) c in
  let* ctcj := mulc ctc (mtrans jac) in
  let* iti := mulc (mtrans innovation) innovation in
  let* inv := invc iti in
  let* gain := mulc ctcj inv in
  let* kh := mulc gain jac in
  let* ikh := subc (midm (nr c) (nc c)) kh in
  let* l := mulc c (mtrans ikh) in
  let* r := mulc observation_noise (mtrans gain) in
  let* c' := QR_r l r in
  OK (gain, c').

(** Lines 43-47, 59-62: standard (Joseph) form: gain, new covariance. *)
Definition kalman_std (c jac noise : mat R) : res (mat R * mat R) :=
  let* hp := mulc jac c in
  let* hph := mulc hp (mtrans jac) in
  let* innovation := addc hph noise in
  let* ph := mulc c (mtrans jac) in
  let* inv := invc innovation in
  let* gain := mulc ph inv in
  let* kh := mulc gain jac in
  let* ikh := subc (midm (nr c) (nc c)) kh in
  let* a := mulc ikh c in
  let* a := mulc a (mtrans ikh) in
  let* b := mulc gain noise in
  let* b := mulc b (mtrans gain) in
  let* c' := addc a b in
  OK (gain, c').

(** Lines 26-64. *)
Definition KalmanUpdate (e : ekf) (jac residual noise : mat R) : res ekf :=
  let* (gain, c') := (if is_root e then kalman_root (e_cov e) jac noise
                      else kalman_std (e_cov e) jac noise) in
  let* update := mulc gain residual in
  let* s := state_plus_vec (e_state e) update in
  OK (with_cov (with_state e s) c').
