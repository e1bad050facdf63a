(** Measurements that arrive after the filter has moved past their time. *)
From Coq Require Import Reals List Arith Bool.
From Verif Require Import Base.Res Base.Mat Base.Geom Base.AMap
  Model.Types Model.Ekf Model.MsckfUpdater Model.FiducialUpdater Model.Sensors.
Import ListNotations.
Open Scope R_scope.

(** The stamp [t] lies before the time of the filter. *)
Definition late (e : ekf) (t : R) : Prop := e_time_init e = true /\ t - e_ref_time e < e_time e.

(** The same measurement with another stamp. *)
Definition stamped (m : message) (t : R) : message :=
  match m with
  | MImu id _ acc A omg W => MImu id t acc A omg W
  | MGps id _ lla N => MGps id t lla N
  | MCam id _ frame tracks boards => MCam id t frame tracks boards
  | MOther id _ => MOther id t
  end.
(** A fix collected for the alignment: its stamp is kept. *)
Definition collected (e : ekf) (m : message) : Prop :=
  match m with MGps _ _ _ _ => e_lla_init e = false | _ => False end.
