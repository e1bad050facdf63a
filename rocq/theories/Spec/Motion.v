(** The motion model: constant acceleration and constant rate over a time
    step, acceleration measured with gravity. *)
From Coq Require Import Reals.
From Verif Require Import Base.Geom Model.TypeHelper Model.Types.
Open Scope R_scope.

Definition earth_gravity : V3 := mkV3 0 0 (9 + 80665 / 100000).

Record moved (zero_acc : bool) (dt : R) (b b' : BodyState) : Prop := mkMoved {
  mv_vel : b_vel b' = vadd (b_vel b) (vscale dt (if zero_acc then v0 else vsub (b_acc b) earth_gravity));
  mv_pos : b_pos b' = vadd (b_pos b) (vscale dt (b_vel b'));
  mv_ang : b_ang b' = qmul (RotVecToQuat (vscale dt (b_ang_vel b))) (b_ang b);
  mv_acc : b_acc b' = b_acc b;
  mv_rate : b_ang_vel b' = b_ang_vel b;
  mv_rate_acc : b_ang_acc b' = b_ang_acc b }.
