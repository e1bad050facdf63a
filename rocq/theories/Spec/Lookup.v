(** Looking up where the body was: what a stored clone and a blend of two
    neighbouring poses are. *)
From Coq Require Import Reals List Arith Bool Sorted.
From Verif Require Import Base.Geom Model.Types Model.Ekf Spec.Layout Spec.History.
Import ListNotations.
Open Scope nat_scope.

(** [c] is the youngest clone of a frame. *)
Definition youngest (l : list AugState) (frame : nat) (c : AugState) : Prop :=
  exists l1 l2, l = l1 ++ c :: l2 /\ a_frame c = frame /\ forall b, In b l2 -> a_frame b <> frame.

(** The window consulted when the camera does not clone its own frames. *)
Definition shared_key (e : ekf) : nat := match p_aug (e_par e) with APrimary => e_primary e | _ => 0 end.

(** The answer has the pose of a clone. *)
Definition pose_of (c a : AugState) : Prop := a_pos a = a_pos c /\ a_ang a = a_ang c.

(** A point of the segment from [p] to [q]. *)
Definition part_way (p q : V3) (t : R) (x : V3) : Prop :=
  vx x = (vx p + t * (vx q - vx p))%R /\ vy x = (vy p + t * (vy q - vy p))%R /\ vz x = (vz p + t * (vz q - vz p))%R.

(** The answer lies the part [t] of the way from one pose to the other. *)
Definition blend (p0 : V3) (q0 : quat) (p1 : V3) (q1 : quat) (t : R) (a : AugState) : Prop :=
  part_way p0 p1 t (a_pos a) /\ a_ang a = qslerp q0 t q1 /\ a_alpha a = t.

(** The index [i] is where a clone of window [key] starts. *)
Definition clone_index (e : ekf) (key i : nat) : Prop :=
  exists pos, forall k, k < 6 -> nth_error (layout (e_state e)) (i + k) = Some (LAug key pos k).
