(** /repo/src/utility/string_helper.cpp.  Streaming a double into a
    stringstream is the parameter [show] (what it prints depends on the
    value, the precision in force and the locale); std::to_string of an unsigned
    integer is its decimal notation. *)
From Coq Require Import Reals List Arith Bool String Ascii DecimalString ZArith.
From Verif Require Import Base.Geom.
Import ListNotations.
Open Scope string_scope.

(** std::to_string (unsigned), and streaming an unsigned integer. *)
Definition to_string (n : nat) : string := NilEmpty.string_of_uint (Nat.to_uint n).

(** Streaming a signed integer. *)
Definition int_string (z : Z) : string :=
  if (z <? 0)%Z then "-" ++ to_string (Z.abs_nat z) else to_string (Z.abs_nat z).

(** 24-31: the loop runs i = 0 .. size-1. *)
Definition EnumerateHeader (name : string) (size : nat) : string :=
  fold_left (fun s i => s ++ "," ++ name ++ "_" ++ to_string i) (seq 0 size) "".

(** 33-49: [show] includes the precision of the second overload. *)
Definition VectorToCommaString (show : R -> string) (vec : list R) : string :=
  fold_left (fun s x => s ++ "," ++ show x) vec "".

(** 51-59 *)
Definition QuaternionToCommaString (show : R -> string) (q : quat) : string :=
  "," ++ show (qw q) ++ "," ++ show (qx q) ++ "," ++ show (qy q) ++ "," ++ show (qz q).
