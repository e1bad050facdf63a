(** Programs whose sensors never look at anything outside the body. *)
From Coq Require Import Reals List Arith Bool.
From Verif Require Import Base.Res Base.Mat Base.Geom Base.AMap Model.Types Model.Ekf Model.Ops Model.Sensors.
Import ListNotations.

(** No GPS fix, no feature track, no board; cameras take frames and clones
    are made. *)
Definition apart (v : event) : Prop :=
  match v with
  | ENewImu _ | ENewGps _ | EConf _ => True
  | ENewCam _ _ fs => fs = []
  | EMsg (MImu _ _ _ _ _ _) | EMsg (MOther _ _) => True
  | EMsg (MGps _ _ _ _) => False
  | EMsg (MCam _ _ _ tracks boards) => Forall (fun x => snd x = []) tracks /\ Forall (fun x => snd x = None) boards
  | EImage _ _ _ seen board => (forall k, seen k = []) /\ forall k, board k = None
  end.
