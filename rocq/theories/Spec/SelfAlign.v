(** Fixes that fit the positions the filter had when they came in. *)
From Coq Require Import Reals List ZArith.
From Verif Require Import Base.Res Base.Geom Model.TypeHelper Model.Types Model.GpsHelper Model.Geodetic Model.Ekf Model.GpsUpdater Spec.Points.
Import ListNotations.
Open Scope R_scope.

(** [enu] are the fixes [ecef], seen from the point [ref] the conversion
    finds for their mean; turned by [yaw] and moved by [t] they are the
    positions [xyz]. *)
Definition fits (ecef_to_lla : V3 -> V3) (yaw : R) (t : V3) (xyz ecef : list V3) (ref : V3) (enu : list V3) : Prop :=
  ref = ecef_to_lla (mean ecef) /\ Forall2 (fun p q => ecef_to_enu p ref = OK q) ecef enu /\
  xyz = map (rigid yaw t) enu /\ spread enu /\ (4 <= length enu)%nat.

(** Where the filter puts a point, given its reference and heading. *)
Definition placed_at (ref : V3) (heading : R) (p : V3) (x : V3) : Prop :=
  exists q, ecef_to_enu p ref = OK q /\ x = enu_to_local q heading.

(** The filter is told where it is, then given a fix, and so on. *)
Fixpoint survey svd hull (ecef_to_lla : V3 -> V3) (e : ekf) (l : list (V3 * V3)) : res ekf :=
  match l with
  | [] => OK e
  | (x, lla) :: l =>
      let* e := AttemptGps svd hull ecef_to_lla (Initialize e 0 (mkBody x v0 v0 qid v0 v0 0)) 0 lla in
      survey svd hull ecef_to_lla e l
  end.

(** Distance on the ground, and a hull that keeps two points furthest apart. *)
Definition horizontal (a b : V3) : R := sqrt ((vx a - vx b) ^ 2 + (vy a - vy b) ^ 2).
Definition sq_dist (a b : Z * Z) : Z := ((fst a - fst b) ^ 2 + (snd a - snd b) ^ 2)%Z.
Definition keeps_extent (hull : list (Z * Z) -> list (Z * Z)) : Prop := forall l,
  incl (hull l) l /\ forall a b, In a l -> In b l -> exists a' b', In a' (hull l) /\ In b' (hull l) /\ (sq_dist a b <= sq_dist a' b')%Z.

(** The conversion of the code where it is defined (C56: at least 50 km from
    the centre of the Earth). *)
Definition converted (p : V3) : V3 := match ecef_to_lla p with OK l => l | UB => v0 end.
