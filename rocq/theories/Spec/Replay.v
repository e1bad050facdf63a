(** What replaying simulated measurements should mean. *)
From Coq Require Import Reals List Arith Bool.
From Verif Require Import Base.Res Base.Mat Base.Geom Base.AMap Model.Types Model.Ekf Model.MathHelper Model.GpsHelper Model.FiducialUpdater Model.MsckfUpdater Model.Sensors Model.Simulation
  Spec.Callback Spec.World.
Import ListNotations.
Open Scope R_scope.

(** A message carrying a measurement of a configured sensor. *)
Definition produced_by (s : simspec) (m : message) : Prop :=
  match s, m with
  | SimImu _ times acc A omg W, MImu _ t a A' o W' => In t times /\ a = acc t /\ A' = A /\ o = omg t /\ W' = W
  | SimGps _ times lla N, MGps _ t x N' => In t times /\ x = lla t /\ N' = N
  | SimCam _ _ _ times tracks board, MCam _ t f tr bo =>
      In t times /\ (forall k x, In (k, x) tr -> x = tracks k t f) /\ (forall k x, In (k, x) bo -> x = board k t)
  | _, _ => False
  end.
(** The sensor object of a configured sensor. *)
Definition object_of (s : simspec) (x : sensor) : Prop :=
  match s, x with
  | SimImu p _ _ _ _ _, SImu _ | SimGps p _ _ _, SGps _ | SimCam p _ _ _ _ _, SCam _ _ => True
  | _, _ => False
  end.
Definition times_of (s : simspec) : list R :=
  match s with SimImu _ l _ _ _ _ | SimGps _ l _ _ | SimCam _ _ _ l _ _ => l end.

(** Parameters and noise the filter can work with. *)
Definition simspec_ok (w : world) (s : simspec) : Prop :=
  match s with
  | SimImu p _ _ A _ W => imu_params_ok p /\ noise_ok (p_root (e_par (w_ekf w))) 3 A /\ noise_ok (p_root (e_par (w_ekf w))) 3 W
  | SimGps p _ _ N => gps_params_ok p /\ noise_ok (p_root (e_par (w_ekf w))) 3 N
  | SimCam p ts fs _ _ board => cam_params_ok p /\ Forall (fun t => at_most (tp_cam_ext t) (cp_ext p)) ts /\
      Forall (fid_params_ok (w_ekf w) (cp_ext p) fs) fs /\ (forall k t d, board k t = Some d -> errors_positive d)
  end.
Fixpoint simspecs_ok (w : world) (l : list simspec) : Prop :=
  match l with
  | [] => True
  | s :: l => simspec_ok w s /\ forall ms w', sim_add w s = OK (ms, w') -> simspecs_ok w' l
  end.

(** Messages in the order of their time stamps. *)
Fixpoint chronological (l : list message) : Prop :=
  match l with
  | [] => True
  | a :: t => (forall b, In b t -> msg_time a <= msg_time b) /\ chronological t
  end.

(** A strict weak order. *)
Definition strict_weak_order {A} (lt : A -> A -> bool) : Prop :=
  (forall a, lt a a = false) /\
  (forall a b, lt a b = true -> lt b a = false) /\
  (forall a b c, lt a b = true -> lt b c = true -> lt a c = true) /\
  (forall a b c, lt a b = false -> lt b a = false -> lt b c = false -> lt c b = false -> lt a c = false /\ lt c a = false).

Section Step.
Variable svd : m2 -> m2 * m2.
Variable hull : list (BinNums.Z * BinNums.Z) -> list (BinNums.Z * BinNums.Z).
Variable ecef_to_lla : V3 -> V3.
Variable mat_quat : mat R -> quat.
Variable solve : mat R -> V3 -> V3.
(** Every message reaches its sensor, at or after the filter's clock, and
    leaves the clock at its own time. *)
Fixpoint in_step (w : world) (l : list message) : Prop :=
  match l with
  | [] => True
  | m :: l =>
      addressed w m /\ e_time (w_ekf w) <= local_of (w_ekf w) (msg_time m) /\
      forall w', deliver svd hull ecef_to_lla mat_quat solve w m = OK w' ->
        e_time (w_ekf w') = local_of (w_ekf w) (msg_time m) /\ in_step w' l
  end.
End Step.

(** Frame numbers of camera messages, in order. *)
Definition frames_of (l : list message) : list nat :=
  flat_map (fun m => match m with MCam _ _ f _ _ => [f] | _ => [] end) l.
Definition camera_times (l : list simspec) : nat :=
  fold_right (fun s n => (match s with SimCam _ _ _ times _ _ => length times | _ => 0 end + n)%nat) 0%nat l.
