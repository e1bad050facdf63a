(** The simulation program: message times, message generation, sorting,
    replay.  /repo/src/sensors/sim/{sim_sensor,sim_imu,sim_gps,sim_camera}.cpp,
    /repo/src/application/sim/simulation.cpp 286-521.

    The contents of a measurement (truth plus random errors) are given as
    functions of its time; random draws are arguments. *)
From Coq Require Import Reals List Arith Bool ZArith Permutation.
From Verif Require Import Base.Res Base.Mat Base.RDec Base.Geom Base.AMap
  Model.Types Model.Ekf Model.MathHelper Model.GpsHelper Model.ImuUpdater Model.GpsUpdater
  Model.FiducialUpdater Model.MsckfUpdater Model.Sensors.
Import ListNotations.
Open Scope R_scope.

(** sim_sensor.cpp 44-53.  [noise t] is the draw of NormRand(t, error). *)
Definition ApplyTimeError (no_errors : bool) (noise : R -> R) (t : R) : R := if no_errors then t else noise t.
(** sim_sensor.cpp 31-42.  [u] is the draw of UniRand(0, 1/rate).  The cast of
    a negative double to unsigned and a division by rate 0 are undefined. *)
Definition GenerateMeasurementTimes (no_errors : bool) (u : R) (noise : R -> R) (max_time rate : R) : res (list R) :=
  let* _ := guard (negb (Reqb rate 0)) in
  let* _ := guard (Rleb 0 (max_time * rate)) in
  let num := Z.to_nat (Int_part (max_time * rate)) in
  let time_init := if no_errors then 0 else u in
  OK (map (fun i => ApplyTimeError no_errors noise (INR i / rate + time_init)) (seq 0 num)).

(** One sensor of the configuration file with its measurement times and
    what it will measure. *)
Inductive simspec : Type :=
| SimImu (p : ImuParams) (times : list R) (acc : R -> V3) (acc_cov : mat R) (omg : R -> V3) (omg_cov : mat R)
| SimGps (p : GpsParams) (times : list R) (lla : R -> V3) (pos_cov : mat R)
| SimCam (p : CamParams) (ts : list TrackerParams) (fs : list FidParams) (times : list R)
    (tracks : nat -> R -> nat -> list FeatureTrack) (board : nat -> R -> option BoardDetection).

(** sim_camera.cpp 66-95 *)
Fixpoint camera_messages (c : counters) (id : nat) (trs : list nat) (fids : list nat) (times : list R)
  (tracks : nat -> R -> nat -> list FeatureTrack) (board : nat -> R -> option BoardDetection) :
  list message * counters :=
  match times with
  | [] => ([], c)
  | t :: times =>
      let '(frame, c) := GenerateFrameID c in
      let m := MCam id t frame (map (fun k => (k, tracks k t frame)) trs) (map (fun k => (k, board k t)) fids) in
      let '(ms, c) := camera_messages c id trs fids times tracks board in
      (m :: ms, c)
  end.

(** simulation.cpp 286-494: construct the sensor, put it into the map,
    generate its messages (sim_imu.cpp 67-118, sim_gps.cpp 46-80). *)
Definition sim_add (w : world) (s : simspec) : res (list message * world) :=
  match s with
  | SimImu p times acc A omg W =>
      let* q := imu_new (w_cnt w) (w_ekf w) p in
      let '(id, _, _, _) := q in
      OK (map (fun t => MImu id t (acc t) A (omg t) W) times, install w q)
  | SimGps p times lla N =>
      let* q := gps_new (w_cnt w) (w_ekf w) p in
      let '(id, _, _, _) := q in
      OK (map (fun t => MGps id t (lla t) N) times, install w q)
  | SimCam p ts fs times tracks board =>
      let* q := camera_new (w_cnt w) (w_ekf w) p ts fs in
      let '(id, s, c, e) := q in
      let '(trs, fids) := match s with SCam trs fids => (keys trs, keys fids) | _ => ([], []) end in
      let '(ms, c) := camera_messages c id trs fids times tracks board in
      OK (ms, install w (id, s, c, e))
  end.
Fixpoint sim_build (w : world) (l : list simspec) : res (list message * world) :=
  match l with
  | [] => OK ([], w)
  | s :: l =>
      let* (ms, w) := sim_add w s in
      let* (ms', w) := sim_build w l in
      OK (ms ++ ms', w)
  end.

(** simulation.cpp 497: std::sort with MessageCompare.  Any result the
    standard allows: a permutation in which no element compares less than
    an earlier one. *)
Inductive ordered : list message -> Prop :=
| ordered_nil : ordered []
| ordered_cons : forall a l, Forall (fun b => MessageCompare b a = false) l -> ordered l -> ordered (a :: l).
Definition sort_result (ms s : list message) : Prop := Permutation ms s /\ ordered s.

(** One such result. *)
Fixpoint insert_message (a : message) (l : list message) : list message :=
  match l with
  | [] => [a]
  | b :: t => if MessageCompare b a then b :: insert_message a t else a :: l
  end.
Fixpoint sort_messages (l : list message) : list message :=
  match l with [] => [] | a :: t => insert_message a (sort_messages t) end.

Section Replay.
Variable svd : m2 -> m2 * m2.
Variable hull : list (Z * Z) -> list (Z * Z).
Variable ecef_to_lla : V3 -> V3.
Variable mat_quat : mat R -> quat.
Variable solve : mat R -> V3 -> V3.
(** simulation.cpp 502-521 *)
Fixpoint replay (w : world) (l : list message) : res world :=
  match l with
  | [] => OK w
  | m :: l => let* w := deliver svd hull ecef_to_lla mat_quat solve w m in replay w l
  end.
End Replay.
