(** What it means for a recorded motion to be consistent. *)
From Coq Require Import Reals List.
From Verif Require Import Base.Geom.
Open Scope R_scope.

(** [f] has the derivative [d] at time [t]. *)
Definition rate_of (f : R -> V3) (t : R) (d : V3) : Prop :=
  derivable_pt_lim (fun s => vx (f s)) t (vx d) /\
  derivable_pt_lim (fun s => vy (f s)) t (vy d) /\
  derivable_pt_lim (fun s => vz (f s)) t (vz d).
Definition qrate_of (f : R -> quat) (t : R) (d : quat) : Prop :=
  derivable_pt_lim (fun s => qw (f s)) t (qw d) /\
  derivable_pt_lim (fun s => qx (f s)) t (qx d) /\
  derivable_pt_lim (fun s => qy (f s)) t (qy d) /\
  derivable_pt_lim (fun s => qz (f s)) t (qz d).
(** The attitude [q] (body to local) turns at [t] with the angular rate [w]
    given in the body frame: dq/dt = 1/2 q * (0, w). *)
Definition turns (q : R -> quat) (t : R) (w : V3) : Prop :=
  qrate_of q t (qmul (q t) (mkQ 0 (vx w / 2) (vy w / 2) (vz w / 2))).
(** Continuity at a time. *)
Definition unbroken (f : R -> V3) (t : R) : Prop :=
  continuity_pt (fun s => vx (f s)) t /\ continuity_pt (fun s => vy (f s)) t /\ continuity_pt (fun s => vz (f s)) t.
Definition qunbroken (f : R -> quat) (t : R) : Prop :=
  continuity_pt (fun s => qw (f s)) t /\ continuity_pt (fun s => qx (f s)) t /\
  continuity_pt (fun s => qy (f s)) t /\ continuity_pt (fun s => qz (f s)) t.
(** The body angular acceleration that belongs to roll, pitch and yaw [e]
    with first derivatives [e'] (terms the Euler angle accelerations do not
    contribute). *)
Definition gyroscopic (e e' : V3) : V3 :=
  let r := vx e in let p := vy e in
  mkV3 (- cos p * vy e' * vz e')
       (- sin r * vx e' * vy e' + (cos r * cos p * vx e' - sin r * sin p * vy e') * vz e')
       (- cos r * vx e' * vy e' - (sin r * cos p * vx e' + cos r * sin p * vy e') * vz e').

(** [v] lies on the line from the [k]-th to the next sample, as far along as
    the time [x], counted in samples. *)
Definition on_line (l : list V3) (k : nat) (x : R) (v : V3) : Prop :=
  exists a b, nth_error l k = Some a /\ nth_error l (k + 1) = Some b /\ INR k <= x < INR k + 1 /\
    v = vadd a (vscale (x - INR k) (vsub b a)).
(** [v] lies on the line between two neighbouring control points, as far
    along as the time [t]. *)
Definition on_path (times : list R) (points : list V3) (t : R) (v : V3) : Prop :=
  exists j ta tb a b, nth_error times j = Some ta /\ nth_error times (j + 1) = Some tb /\
    nth_error points j = Some a /\ nth_error points (j + 1) = Some b /\ ta <= t <= tb /\ ta < tb /\
    v = vadd a (vscale ((t - ta) / (tb - ta)) (vsub b a)).
(** Strictly increasing times. *)
Definition increasing (l : list R) : Prop :=
  forall i a b, nth_error l i = Some a -> nth_error l (i + 1) = Some b -> a < b.
