(** First estimates: what an updater keeps of the sensor pose it was first
    used with. *)
From Coq Require Import Reals List Arith Bool.
From Verif Require Import Base.Res Base.Mat Base.Geom Base.AMap Model.Types Model.Ekf
  Model.ImuUpdater Model.GpsUpdater Model.FiducialUpdater Model.MsckfUpdater Model.Sensors.
Import ListNotations.
Open Scope nat_scope.

(** Every updater that was used already is the same later. *)
Definition frozen (s s' : sensor) : Prop :=
  match s, s' with
  | SImu _, SImu _ => True
  | SGps u, SGps u' => gu_first u = false -> u' = u
  | SCam trs fids, SCam trs' fids' =>
      (forall k tr, mfind k trs = Some tr -> mu_first (tk_upd tr) = false -> mfind k trs' = Some tr) /\
      (forall k f, mfind k fids = Some f -> fu_first f = false -> mfind k fids' = Some f)
  | _, _ => False
  end.

(** The lever arm a receiver's updater works with. *)
Definition lever (u : gps_updater) (e : ekf) : V3 :=
  if gu_first u then g_pos (mget default_gps (gu_id u) (s_gps (e_state e))) else gu_pos u.
