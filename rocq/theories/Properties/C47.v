(** C47: CSV header enumeration. *)
From Coq Require Import Reals List String DecimalString.
From Verif Require Import Base.Geom Model.StringHelper Spec.Csv Proofs.Strings.
Import ListNotations.
Open Scope string_scope.

Theorem C47_enumerate : forall p name n, no_comma name ->
  columns (p ++ EnumerateHeader name n) = (columns p ++ map (fun i => (name ++ "_" ++ to_string i)%string) (seq 0 n))%list.
Proof. exact enumerate_columns. Qed.
Print Assumptions C47_enumerate.

Theorem C47_names_differ : forall name n, NoDup (map (fun i => (name ++ "_" ++ to_string i)%string) (seq 0 n)).
Proof. exact group_names_differ. Qed.
Print Assumptions C47_names_differ.

Theorem C47_numbers : forall n, option_map Nat.of_uint (NilEmpty.uint_of_string (to_string n)) = Some n.
Proof. exact to_string_reads_back. Qed.
Print Assumptions C47_numbers.

Theorem C47_vector : forall show p v, (forall x, no_comma (show x)) ->
  columns (p ++ VectorToCommaString show v) = (columns p ++ map show v)%list.
Proof. exact vector_columns. Qed.
Print Assumptions C47_vector.

Theorem C47_quaternion : forall show p q, (forall x, no_comma (show x)) ->
  columns (p ++ QuaternionToCommaString show q) =
  (columns p ++ [show (qw q); show (qx q); show (qy q); show (qz q)])%list.
Proof. exact quat_columns. Qed.
Print Assumptions C47_quaternion.

Example C47_case : EnumerateHeader "body_pos" 3 = ",body_pos_0,body_pos_1,body_pos_2" /\
  columns ("time" ++ EnumerateHeader "x" 11) =
    ["time"; "x_0"; "x_1"; "x_2"; "x_3"; "x_4"; "x_5"; "x_6"; "x_7"; "x_8"; "x_9"; "x_10"].
Proof. vm_compute. auto. Qed.
