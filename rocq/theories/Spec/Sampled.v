(** The sampled truth as its users see it. *)
From Coq Require Import Reals List.
From Verif Require Import Base.Res Base.Geom Model.TruthEngine.
Import ListNotations.
Open Scope R_scope.

(** Made by the constructor, with a positive sample rate. *)
Definition built (s : smoother) : Prop :=
  0 < sm_rate s /\
  exists times poses angles pos_errors ang_errors draw_pos draw_ang,
    mk_smoother times poses angles pos_errors ang_errors (sm_stationary_time s) (sm_max_time s) (sm_rate s)
      draw_pos draw_ang = OK s.
(** The six sample arrays, and the getters with the samples they report. *)
Definition all_samples (s : smoother) : list (list V3) :=
  [sm_pos s; sm_vel s; sm_acc s; sm_ang s; sm_ang_vel s; sm_ang_acc s].
Definition vector_getters : list ((smoother -> R -> res V3) * (smoother -> list V3)) :=
  [(sm_GetBodyPosition, sm_pos); (sm_GetBodyVelocity, sm_vel); (sm_GetBodyAcceleration, sm_acc);
   (sm_GetBodyAngularRate, sm_ang_vel); (sm_GetBodyAngularAcceleration, sm_ang_acc)].
(** Times for which the getters look up a sample. *)
Definition accepted (s : smoother) (t : R) : Prop :=
  sm_stationary_time s <= t <= sm_stationary_time s + sm_max_time s.
(** Samples and the samples of their rate of change. *)
Definition rates (s : smoother) : list (list V3 * list V3) :=
  [(sm_pos s, sm_vel s); (sm_vel s, sm_acc s); (sm_ang s, sm_ang_vel s); (sm_ang_vel s, sm_ang_acc s)].
(** The [i]-th point of a flat list of coordinates. *)
Definition point_at (flat : list R) (i : nat) (p : V3) : Prop :=
  nth_error flat (3 * i) = Some (vx p) /\ nth_error flat (3 * i + 1) = Some (vy p) /\
  nth_error flat (3 * i + 2) = Some (vz p).
