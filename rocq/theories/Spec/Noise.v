(** The process noise a filter is configured with, per scalar error state. *)
From Coq Require Import Reals List Arith Bool.
From Verif Require Import Base.Res Base.Mat Base.Geom Base.AMap Model.Types Model.Ekf Model.Ops Spec.Layout.
Import ListNotations.
Open Scope R_scope.

(** The rate of the quantity with this name: the body noise vector for the
    body, the stability of the sensor for a sensor, nothing for a clone. *)
Definition own_rate (s : State) (bodyQ : mat R) (l : label) : R :=
  match l with
  | LBody k => ent bodyQ k 0
  | LImuExt id k => match mfind id (s_imu s) with Some x => if Nat.ltb k 3 then i_pos_stab x else i_ang_stab x | None => 0 end
  | LImuInt id k => match mfind id (s_imu s) with Some x => if Nat.ltb k 3 then i_acc_stab x else i_omg_stab x | None => 0 end
  | LGps id _ => match mfind id (s_gps s) with Some x => g_pos_stab x | None => 0 end
  | LCam id k => match mfind id (s_cam s) with Some x => if Nat.ltb k 3 then c_pos_stab x else c_ang_stab x | None => 0 end
  | LFid id k => match mfind id (s_fid s) with Some x => if Nat.ltb k 3 then f_pos_stab x else f_ang_stab x | None => 0 end
  | LAug _ _ _ => 0
  end.

(** The stored process noise is diagonal with these rates (their square
    roots in square-root form). *)
Definition configured (e : ekf) : Prop :=
  nr (e_Q e) = dim (e_state e) /\ nc (e_Q e) = dim (e_state e) /\
  forall i j a b, nth_error (layout (e_state e)) i = Some a -> nth_error (layout (e_state e)) j = Some b ->
    ent (e_Q e) i j = if Nat.eqb i j
                      then (if p_root (e_par e) then sqrt (own_rate (e_state e) (e_bodyQ e) a)
                            else own_rate (e_state e) (e_bodyQ e) a)
                      else 0.

(** The stored process noise is zero. *)
Definition silent (e : ekf) : Prop := forall i j, ent (e_Q e) i j = 0.

(** Calls that refresh the indices whatever the state: a first registration,
    or an explicit request. *)
Definition refreshing (e : ekf) (o : op) : Prop :=
  match o with
  | ORegImu id _ _ => mfind id (s_imu (e_state e)) = None
  | ORegGps id _ _ => mfind id (s_gps (e_state e)) = None
  | ORegCam id _ _ => mfind id (s_cam (e_state e)) = None
  | ORegFid st _ => mfind (f_id st) (s_fid (e_state e)) = None
  | ORefresh => True
  | _ => False
  end.

(** Neither a registration, nor a camera frame, nor a refresh. *)
Definition plain_call (o : op) : Prop :=
  match o with
  | ORegImu _ _ _ | ORegGps _ _ _ | ORegCam _ _ _ | ORegFid _ _ | ORefresh | OFrame _ _ => False
  | _ => True
  end.
Definition keeps_noise (o : op) : Prop := match o with OSetNoise _ => False | _ => True end.
