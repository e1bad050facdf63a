(** When the TIME and ERROR augmentation modes owe a new clone. *)
From Coq Require Import Reals List Arith Bool Sorted.
From Verif Require Import Base.Geom Base.AMap Model.TypeHelper Model.Types Model.MathHelper Model.Ekf Model.Ops.
Import ListNotations.
Open Scope nat_scope.

(** The newest clone of the shared window. *)
Definition newest (e : ekf) : option AugState :=
  match rev (aug_at e 0) with [] => None | a :: _ => Some a end.

(** Where a body of today's pose, velocity and turning rate was [dt] ago, had
    it moved uniformly. *)
Definition back_pos (b : BodyState) (dt : R) : V3 := vsub (b_pos b) (vscale dt (b_vel b)).
Definition back_ang (b : BodyState) (dt : R) : quat :=
  qmul (b_ang b) (qinv (RotVecToQuat (vscale dt (b_ang_vel b)))).

(** The body did not move uniformly since the clone [a] was taken, up to the
    configured errors. *)
Definition left_line (e : ekf) (a : AugState) : Prop :=
  let b := s_body (e_state e) in let dt := (e_time e - a_time a)%R in
  (p_aug_pos_err (e_par e) < vnorm (vsub (back_pos b dt) (a_pos a)))%R \/
  (p_aug_ang_err (e_par e) < vnorm (QuatToRotVec (qmul (back_ang b dt) (qinv (a_ang a)))))%R.

(** A clone is due: there is none; or the configured period has passed since
    the newest one; or (ERROR) the newest one is older than a track may last,
    or older than the least distance and the body left its line. *)
Definition due (e : ekf) : Prop :=
  match newest e with
  | None => True
  | Some a =>
      match p_aug (e_par e) with
      | ATime => (p_aug_dt (e_par e) < Rabs (e_time e - a_time a))%R
      | AError => (e_track_dur e < e_time e - a_time a)%R \/
                  ((e_min_aug e < e_time e - a_time a)%R /\ left_line e a)
      | _ => False
      end
  end.

(** The number of frames announced by a history. *)
Definition frames (l : list op) : nat :=
  length (filter (fun o => match o with OFrame _ _ => true | _ => false end) l).

(** Neighbouring times are more than [dt] apart. *)
Definition spaced (dt : R) (l : list R) : Prop := Sorted (fun a b => dt < b - a)%R l.
