(** Prediction in square-root form. *)
From Coq Require Import Reals List Arith Bool.
From Verif Require Import Base.Mat Base.LinAlg Model.Types Model.Ekf Spec.Layout Spec.KF Spec.Noise.
Import ListNotations.
Open Scope R_scope.

(** The configured noise rate of the scalar at a position. *)
Definition rate_at (e : ekf) (i : nat) : R :=
  match nth_error (layout (e_state e)) i with Some a => own_rate (e_state e) (e_bodyQ e) a | None => 0 end.

(** Noise added after the transition (the standard form adds it before, see
    [predicted]). *)
Definition noise_last (n : nat) (dt : R) (P : fmat) (q : nat -> R) : fmat :=
  madd (mm n (mm n (Fx dt) P) (tr (Fx dt))) (mscal dt (diagm q)).

(** The factor with its body columns moved by the transition, and the body
    rows of the remaining columns too. *)
Definition bent (dt : R) (S : fmat) : fmat := fun i j =>
  if Nat.ltb i 18 then
    if Nat.ltb j 18 then S i j + (if Nat.ltb j 3 then dt * S i (j + 3)%nat else 0)
    else S i j + (if Nat.ltb i 3 then dt * S (i + 3)%nat j else 0)
  else S i j.

(** The velocity rows of the factor do not reach the remaining quantities. *)
Definition uncoupled (e : ekf) : Prop :=
  forall i j, (3 <= i < 6)%nat -> (18 <= j < e_size e)%nat -> ent (e_cov e) i j = 0.
