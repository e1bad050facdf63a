(** States compared without their index members. *)
From Coq Require Import Reals List Arith.
From Verif Require Import Base.Geom Base.AMap Model.Types.
Import ListNotations.
Open Scope nat_scope.

Definition bare_body (b : BodyState) : BodyState :=
  mkBody (b_pos b) (b_vel b) (b_acc b) (b_ang b) (b_ang_vel b) (b_ang_acc b) 0.
Definition bare_imu (s : ImuState) : ImuState :=
  mkImu (i_pos_stab s) (i_ang_stab s) (i_acc_stab s) (i_omg_stab s) (i_pos s) (i_ang s)
    (i_acc_bias s) (i_omg_bias s) (i_size s) 0 0 0 (i_ext s) (i_int s).
Definition bare_gps (s : GpsState) : GpsState := mkGps (g_pos s) (g_pos_stab s) (g_size s) 0 (g_ext s).
Definition bare_cam (s : CamState) : CamState :=
  mkCam (c_pos_stab s) (c_ang_stab s) (c_pos s) (c_ang s) (c_intr s) (c_rate s) (c_size s) 0 (c_ext s).
Definition bare_fid (s : FidState) : FidState :=
  mkFid (f_pos s) (f_ang s) (f_pos_stab s) (f_ang_stab s) (f_size s) 0 (f_id s) (f_ext s).
Definition bare_aug (s : AugState) : AugState :=
  mkAug (a_frame s) (a_time s) (a_pos s) (a_ang s) 0 (a_alpha s).

Definition on_map {A} (f : A -> A) (m : amap A) : amap A := map (fun x => (fst x, f (snd x))) m.

(** The state without bookkeeping. *)
Definition bare (s : State) : State :=
  mkState (bare_body (s_body s)) (on_map bare_imu (s_imu s)) (on_map bare_gps (s_gps s))
    (on_map bare_cam (s_cam s)) (on_map bare_fid (s_fid s)) (on_map (map bare_aug) (s_aug s)).

(** [m'] holds [x] under [id] and otherwise what [m] holds. *)
Definition stores {A} (f : A -> A) (m m' : amap A) (id : nat) (x : A) : Prop :=
  forall k, option_map f (mfind k m') = if Nat.eqb k id then Some (f x) else option_map f (mfind k m).

