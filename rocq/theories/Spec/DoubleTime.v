(** Time stamps and what is asked of them. *)
From Coq Require Import Reals ZArith List.
From Verif Require Import Model.RosNode Model.Ops Model.Sensors Model.DoubleTime.
Open Scope R_scope.

(** A stamp after 1970, as ROS stores it in 32 bits. *)
Definition valid (s : stamp) : Prop := (0 <= st_sec s < 2 ^ 31)%Z /\ (0 <= st_nsec s < 1000000000)%Z.
(** After 10 January 2004 (and before 2038). *)
Definition recent (s : stamp) : Prop := valid s /\ (2 ^ 30 <= st_sec s)%Z.
(** The number of nanoseconds. *)
Definition nanos (s : stamp) : Z := (st_sec s * 1000000000 + st_nsec s)%Z.
(** A double between 2^30 and 2^31 seconds. *)
Definition date (t : R) : Prop := double t /\ 2 ^ 30 <= t <= 2 ^ 31.
(** Messages and images stamped with such doubles; nobody sets the clock. *)
Definition dated (x : event) : Prop :=
  match x with
  | EMsg m => date (msg_time m)
  | EImage _ t _ _ _ => date t
  | EConf (OInit _ _) => False
  | _ => True
  end.
