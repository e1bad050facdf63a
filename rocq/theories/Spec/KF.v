(** Specification of the Kalman filter equations on plain entry functions. *)
From Coq Require Import Reals Arith Bool.
From Verif Require Import Base.LinAlg.
Open Scope R_scope.

(** State transition of the error state over [dt]: positions move with the
    velocities, everything else stays. *)
Definition Fx (dt : R) : fmat := fun i j =>
  if Nat.eqb i j then 1
  else if Nat.ltb i 3 && Nat.eqb j (i + 3) then dt else 0.

(** Covariance prediction with process noise rates [q] (a diagonal). *)
Definition predicted (n : nat) (dt : R) (P : fmat) (q : nat -> R) : fmat :=
  mm n (mm n (Fx dt) (madd P (mscal dt (diagm q)))) (tr (Fx dt)).

(** Innovation covariance of a measurement with Jacobian [H] (m x n) and
    noise [Rn]. *)
Definition innov (n : nat) (P H Rn : fmat) : fmat := madd (mm n (mm n H P) (tr H)) Rn.

(** [K] is a Kalman gain: [K S = P H^T]. *)
Definition is_gain (n m : nat) (P H Rn K : fmat) : Prop :=
  eqm n m (mm m K (innov n P H Rn)) (mm n P (tr H)).

(** Covariance after correcting with an arbitrary gain. *)
Definition joseph (n m : nat) (P H Rn K : fmat) : fmat :=
  let A := msub idm (mm m K H) in
  madd (mm n (mm n A P) (tr A)) (mm m (mm m K Rn) (tr K)).

(** Loewner order. *)
Definition mle (n : nat) (A B : fmat) : Prop := psd n (msub B A).
