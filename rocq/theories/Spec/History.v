(** Notions used to state what whole histories of calls preserve. *)
From Coq Require Import Reals List Arith Bool Sorted.
From Verif Require Import Base.Res Base.Mat Base.Geom Base.AMap Model.Types Model.Ekf Model.Ops.
Import ListNotations.
Open Scope nat_scope.

(** The members other than state, covariance, sizes and process noise are the
    same (the camera periods apart). *)
Definition frame (e e' : ekf) : Prop :=
  e_par e' = e_par e /\ e_time e' = e_time e /\ e_ref_time e' = e_ref_time e /\
  e_time_init e' = e_time_init e /\ e_max_len e' = e_max_len e /\ e_bodyQ e' = e_bodyQ e /\
  e_lla_init e' = e_lla_init e /\ e_pos_e_in_g e' = e_pos_e_in_g e /\
  e_ang_l_to_e e' = e_ang_l_to_e e /\ e_gps_time e' = e_gps_time e /\
  e_gps_ecef e' = e_gps_ecef e /\ e_gps_xyz e' = e_gps_xyz e /\
  e_aug_prev e' = e_aug_prev e /\ e_gravity e' = e_gravity e /\
  e_zero_acc e' = e_zero_acc e /\ e_frame_recv e' = e_frame_recv e.

(** The same frame periods and track durations. *)
Definition cam_frame (e e' : ekf) : Prop :=
  e_primary e' = e_primary e /\ e_frame_period e' = e_frame_period e /\
  e_track_dur e' = e_track_dur e /\ e_min_aug e' = e_min_aug e.

(** Clones are made by time, not by frame. *)
Definition timed (e : ekf) : Prop := p_aug (e_par e) = ATime \/ p_aug (e_par e) = AError.

(** A frame of this camera makes a clone. *)
Definition per_frame (e : ekf) (cam : nat) : bool :=
  (match p_aug (e_par e) with AAll => true | _ => false end) ||
  ((match p_aug (e_par e) with APrimary => true | _ => false end) && Nat.eqb cam (e_primary e)).

(** A window of at most [max] clones after a new one. *)
Definition next_window (max : nat) (v : list AugState) (c : AugState) : list AugState :=
  if length v <? max then v ++ [c] else tl v ++ [c].

(** All ids in use are smaller. *)
Definition below {A} (id : nat) (m : amap A) : Prop := forall k, In k (keys m) -> k < id.

(** No clone is stored. *)
Definition no_clones (e : ekf) : Prop := forall k l, In (k, l) (s_aug (e_state e)) -> l = [].

(** Not a re-initialisation of the filter. *)
Definition not_init (o : op) : Prop := match o with OInit _ _ => False | _ => True end.

(** The times of the GPS samples of a history. *)
Definition sample_time (o : op) : list R := match o with OGpsSample _ _ t _ => [t] | _ => [] end.
Definition gps_times (l : list op) : list R := flat_map sample_time l.

(** Not a manual GPS reference. *)
Definition not_set_gps (o : op) : Prop := match o with OSetGps _ _ => False | _ => True end.

(** All orientations are unit quaternions. *)
Definition all_unit (s : State) : Prop :=
  qnorm2 (b_ang (s_body s)) = 1%R /\
  Forall (fun x => qnorm2 (i_ang (snd x)) = 1%R) (s_imu s) /\
  Forall (fun x => qnorm2 (c_ang (snd x)) = 1%R) (s_cam s) /\
  Forall (fun x => qnorm2 (f_ang (snd x)) = 1%R) (s_fid s) /\
  Forall (fun x => Forall (fun a => qnorm2 (a_ang a) = 1%R) (snd x)) (s_aug s).

(** Orientations handed over by the caller. *)
Definition unit_arg (o : op) : Prop :=
  match o with
  | ORegImu _ st _ => qnorm2 (i_ang st) = 1%R
  | ORegCam _ st _ => qnorm2 (c_ang st) = 1%R
  | ORegFid st _ => qnorm2 (f_ang st) = 1%R
  | OInit _ b => qnorm2 (b_ang b) = 1%R
  | _ => True
  end.

(** Frame id and time of a clone. *)
Definition stamp (a : AugState) : nat * R := (a_frame a, a_time a).
Definition stamps (e : ekf) (k : nat) : list (nat * R) := map stamp (aug_at e k).

(** The frames of one camera in a history; the longest window asked for. *)
Definition frames_of (cam : nat) (l : list op) : list nat :=
  flat_map (fun o => match o with OFrame c f => if Nat.eqb c cam then [f] else [] | _ => [] end) l.
Definition longest (n : nat) (l : list op) : nat :=
  fold_left (fun m o => match o with OSetLen k => Nat.max m k | _ => m end) l n.
Definition same_len (o : op) : Prop := match o with OSetLen _ => False | _ => True end.

(** The end of a list. *)
Definition suffix {A} (w l : list A) : Prop := exists d, l = d ++ w.

Definition last_n {A} (n : nat) (l : list A) : list A := skipn (length l - n) l.

(** Clone times are non-decreasing from oldest to newest and not in the future. *)
Definition ordered (e : ekf) (k : nat) : Prop :=
  StronglySorted Rle (map a_time (aug_at e k)) /\ Forall (fun a => (a_time a <= e_time e)%R) (aug_at e k).
