(** Computations with times as the machine does them: every operation on
    doubles rounds its exact result to the nearest double, ties to even
    (IEEE 754 binary64, Flocq's [FLT_exp (-1074) 53]).  Overflow is left out:
    the numbers here stay far below 2^1024. *)
From Coq Require Import Reals ZArith List.
From Flocq Require Import Core.
From Verif Require Import Model.RosNode.
Open Scope R_scope.

Definition rnd (x : R) : R := round radix2 (FLT_exp (-1074) 53) ZnearestE x.
(** A number that is a double. *)
Definition double (x : R) : Prop := generic_format radix2 (FLT_exp (-1074) 53) x.

(** utility/constants.hpp 21: the literal 1e-9 *)
Definition g_nsec_to_sec_d : R := rnd g_nsec_to_sec.
(** ros_helper.cpp 26-29; both integers are 32 bits and convert exactly *)
Definition RosHeaderToTime_d (s : stamp) : R :=
  rnd (IZR (st_sec s) + rnd (IZR (st_nsec s) * g_nsec_to_sec_d)).
(** ekf.cpp 876: time - m_reference_time *)
Definition local_time_d (time reference : R) : R := rnd (time - reference).
(** ekf.cpp 134: local_time - m_current_time *)
Definition delta_time_d (local current : R) : R := rnd (local - current).
(** sim_sensor.cpp 34: floor(max_time * rate) *)
Definition num_measurements_d (max_time rate : R) : Z := Zfloor (rnd (max_time * rate)).
(** sim_sensor.cpp 39: i / rate + time_init *)
Definition message_time_d (i : nat) (rate init : R) : R := rnd (rnd (INR i / rate) + init).
