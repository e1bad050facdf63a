(** Specification of applying an error-state correction: every estimate is
    changed by the entries of the correction vector found at its own index. *)
From Coq Require Import Reals List Arith.
From Verif Require Import Base.Mat Base.Geom Base.AMap Model.TypeHelper Model.Types.
Import ListNotations.
Open Scope nat_scope.

(** Three consecutive entries of a column vector. *)
Definition segv (r : mat R) (i : nat) : V3 := mkV3 (ent r i 0) (ent r (i + 1) 0) (ent r (i + 2) 0).

Definition correct_body (r : mat R) (b : BodyState) : BodyState :=
  mkBody (vadd (b_pos b) (segv r 0)) (vadd (b_vel b) (segv r 3)) (vadd (b_acc b) (segv r 6))
    (qmul (b_ang b) (RotVecToQuat (segv r 9))) (vadd (b_ang_vel b) (segv r 12))
    (vadd (b_ang_acc b) (segv r 15)) (b_index b).

Definition correct_imu (r : mat R) (s : ImuState) : ImuState :=
  let s := if i_ext s
           then imu_with_pose s (vadd (i_pos s) (segv r (i_index_ext s)))
                  (qmul (i_ang s) (RotVecToQuat (segv r (i_index_ext s + 3))))
           else s in
  if i_int s
  then imu_with_bias s (vadd (i_acc_bias s) (segv r (i_index_int s)))
         (vadd (i_omg_bias s) (segv r (i_index_int s + 3)))
  else s.

Definition correct_gps (r : mat R) (s : GpsState) : GpsState :=
  if g_ext s then gps_with_pos s (vadd (g_pos s) (segv r (g_index s))) else s.

Definition correct_cam (r : mat R) (s : CamState) : CamState :=
  if c_ext s then cam_with_pose s (vadd (c_pos s) (segv r (c_index s)))
                    (qmul (c_ang s) (RotVecToQuat (segv r (c_index s + 3))))
  else s.

Definition correct_fid (r : mat R) (s : FidState) : FidState :=
  if f_ext s then fid_with_pose s (vadd (f_pos s) (segv r (f_index s)))
                    (qmul (f_ang s) (RotVecToQuat (segv r (f_index s + 3))))
  else s.

Definition correct_aug (r : mat R) (s : AugState) : AugState :=
  aug_with_pose s (vadd (a_pos s) (segv r (a_index s)))
    (qmul (a_ang s) (RotVecToQuat (segv r (a_index s + 3)))).

Definition on_snd {A} (f : A -> A) (x : nat * A) : nat * A := (fst x, f (snd x)).

Definition correct (r : mat R) (s : State) : State :=
  mkState (correct_body r (s_body s)) (map (on_snd (correct_imu r)) (s_imu s))
    (map (on_snd (correct_gps r)) (s_gps s)) (map (on_snd (correct_cam r)) (s_cam s))
    (map (on_snd (correct_fid r)) (s_fid s)) (map (on_snd (map (correct_aug r))) (s_aug s)).
