(** Identifiers handed out by a program. *)
From Coq Require Import Reals List Arith Bool.
From Verif Require Import Base.Res Base.Mat Base.Geom Base.AMap Model.Types Model.Ekf Model.Ops Model.Sensors.
Import ListNotations.
Open Scope nat_scope.

(** The four number generators, called in any order. *)
Inductive gen : Type := GSensor | GTracker | GFrame | GFeature.
Definition gen_eqb (a b : gen) : bool :=
  match a, b with GSensor, GSensor | GTracker, GTracker | GFrame, GFrame | GFeature, GFeature => true | _, _ => false end.
Definition call_gen (c : counters) (g : gen) : nat * counters :=
  match g with
  | GSensor => new_sensor_id c
  | GTracker => new_tracker_id c
  | GFrame => GenerateFrameID c
  | GFeature => GenerateFeatureID c
  end.
Fixpoint call_all (c : counters) (l : list gen) : list (gen * nat) :=
  match l with
  | [] => []
  | g :: l => let '(n, c) := call_gen c g in (g, n) :: call_all c l
  end.
(** The numbers one generator returned. *)
Definition given (g : gen) (r : list (gen * nat)) : list nat :=
  map snd (filter (fun x => gen_eqb g (fst x)) r).

(** Sensors and trackers constructed in a history. *)
Definition news (v : event) : nat :=
  match v with ENewImu _ | ENewGps _ | ENewCam _ _ _ => 1 | _ => 0 end.
Definition new_trackers (v : event) : nat :=
  match v with ENewCam _ ts fs => length ts + length fs | _ => 0 end.
Definition total (f : event -> nat) (l : list event) : nat := fold_right (fun v n => f v + n) 0 l.

(** Tracker ids of all cameras, in order of their cameras. *)
Definition tracker_ids (w : world) : list nat :=
  flat_map (fun x => match snd x with SCam trs fids => keys trs ++ keys fids | _ => [] end) (w_sensors w).
